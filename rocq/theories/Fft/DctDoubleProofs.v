(** Class DCT in IEEE doubles: error bounds of forward and inverse. *)
From Coq Require Import ZArith Reals Lia Lra Psatz List Bool Znumtheory.
From Flocq Require Import Core.
From Flocq.IEEE754 Require Import BinarySingleNaN.
From Coquelicot Require Import Complex.
From Verif.Base Require Import Imp Sums RealOps Dbl Double Loops.
From Verif.Maths Require Import DoubleModel DoubleProofs.
From Verif.Fft Require Import Cplx FftModel FftSpec FftBfly FftProofs FftrModel FftrProofs FftReal FftDouble FftDoubleSpec FftRound FftDoubleWork FftDoubleProofs
  FftrDouble FftrDoubleSpec FftrDoubleRuns FftrDoubleProofs FftrDoubleInverse FftrDoubleTheorems DctMath DctProofs DctDouble DctDoubleSpec DctDoubleRuns.
Import ListNotations.
Open Scope R_scope.

Local Notation u := uro.
(** Sums with coefficients of modulus at most 1. *)
Lemma rsum_cos_bound n f c e : (0 <= n)%Z -> 0 <= e -> (forall i, (0 <= i < n)%Z -> Rabs (f i) <= e) -> (forall i, Rabs (c i) <= 1) ->
  Rabs (rsum n (fun i => f i * c i)) <= IZR n * e.
Proof.
  intros Hn He H C. eapply Rle_trans; [apply rsum_abs|]. rewrite <- (rsum_const n e) by exact Hn. apply rsum_le. intros i Hi.
  rewrite Rabs_mult. rewrite <- (Rmult_1_r e). apply Rmult_le_compat; auto using Rabs_pos.
Qed.
Lemma cos_abs x : Rabs (cos x) <= 1.
Proof. pose proof (COS_bound x). apply Rabs_le. lra. Qed.

Lemma dct2_bound n x k e : (0 <= n)%Z -> 0 <= e -> (forall j, (0 <= j < n)%Z -> Rabs (x j) <= e) -> Rabs (dct2 n x k) <= 2 * IZR n * e.
Proof.
  intros Hn He H. unfold dct2. rewrite Rabs_mult, (Rabs_pos_eq 2) by lra.
  pose proof (rsum_cos_bound n x (fun j => cos (PI * IZR k * IZR (2 * j + 1) / IZR (2 * n))) e Hn He H (fun j => cos_abs _)). cbv beta in H0. lra.
Qed.
Lemma idct2_bound n y j e : (1 <= n)%Z -> 0 <= e -> (forall k, (0 <= k < n)%Z -> Rabs (y k) <= e) -> Rabs (idct2 n y j) <= e.
Proof.
  intros Hn He H. assert (N : 1 <= IZR n) by (apply IZR_le; lia). unfold idct2.
  pose proof (rsum_cos_bound (n - 1) (fun i => y (i + 1)%Z) (fun i => cos (PI * IZR (i + 1) * IZR (2 * j + 1) / IZR (2 * n))) e ltac:(lia) He
    (fun i Hi => H (i + 1)%Z ltac:(lia)) (fun j => cos_abs _)) as S. cbv beta in S. set (s := rsum _ _) in *. rewrite minus_IZR in S.
  pose proof (H 0%Z ltac:(lia)) as H0. unfold Rdiv at 1. rewrite Rabs_mult, (Rabs_pos_eq (/ IZR n)) by (apply Rlt_le, Rinv_0_lt_compat; lra).
  apply Rmult_le_reg_r with (IZR n); [lra|]. rewrite Rmult_assoc, Rinv_l, Rmult_1_r by lra.
  eapply Rle_trans; [apply Rabs_triang|]. unfold Rdiv. rewrite Rabs_mult, (Rabs_pos_eq (/ 2)) by lra. lra.
Qed.
Lemma idct2_minus n x y j : idct2 n x j - idct2 n y j = idct2 n (fun k => x k - y k) j.
Proof.
  unfold idct2. rewrite (rsum_ext (n - 1) (fun i => (x (i + 1)%Z - y (i + 1)%Z) * _) (fun i => x (i + 1)%Z * cos (PI * IZR (i + 1) * IZR (2 * j + 1) / IZR (2 * n)) - y (i + 1)%Z * cos (PI * IZR (i + 1) * IZR (2 * j + 1) / IZR (2 * n)))) by (intros; ring).
  rewrite rsum_minus. unfold Rdiv. ring.
Qed.

Section Bounds.
  Context (dcos dsin : double -> double) (Hcos : accurate dcos cos) (Hsin : accurate dsin sin).
  Context (n : Z) (ps : list Z) (Hn : (1 <= n <= 2 ^ 28)%Z) (Hps : prime_factors (n * 4) ps).
  Notation W := (weight ps).
  Notation N := (IZR n).
  Notation xs x := (fun j => dval (zn d0 x j)).

  Lemma n4r : (2 <= n * 4 <= 2 ^ 30)%Z.
  Proof. change (2 ^ 28)%Z with 268435456%Z in Hn. change (2 ^ 30)%Z with 1073741824%Z. lia. Qed.
  Lemma n4even : (n * 4 mod 2 = 0)%Z.
  Proof. replace (n * 4)%Z with (2 * n * 2)%Z by lia. apply Z.mod_mul. lia. Qed.
  Lemma facts : 1 <= W /\ W * u <= 1 / 1000000 /\ 1 <= N <= 268435456 /\ IZR (n * 4) = 4 * N /\ 0 < u /\ u = / 9007199254740992.
  Proof.
    destruct (nW (n * 4) ps n4r n4even Hps) as (A & B & _). change (2 ^ 28)%Z with 268435456%Z in Hn.
    splits; auto using uro_pos, uro_val; try (apply IZR_le; lia). rewrite mult_IZR. ring.
  Qed.

  (** What earlier inverse transforms may have left in the even samples of the time buffer. *)
  Definition leak (M : R) (x : double) : Prop := finite x /\ Rabs (dval x) <= 177 * u * W * M.

  Lemma even_value (t x : Z -> R) e k :
    (forall j, (0 <= j < 2 * n)%Z -> Rabs (t (2 * j)%Z) <= e) ->
    (forall j, (0 <= j < n)%Z -> t (2 * j + 1)%Z = x j) -> (forall j, (0 <= j < n)%Z -> t (4 * n - 2 * j - 1)%Z = x j) ->
    Rabs (fst (cdft false (n * 4) (fun j => cre (t j)) k) - dct2 n x k) <= 2 * N * e.
  Proof.
    intros H0 H1 H2. set (t0 := fun j => if Z.even j then 0 else t j).
    assert (E : forall j, Z.even (2 * j) = true) by (intros; now rewrite Z.even_mul).
    assert (O : forall j, Z.even (2 * j + 1) = false) by (intros; now rewrite Z.add_comm, Z.even_add_mul_2).
    rewrite <- (fwd_value n t0 x k); try lia.
    2:{ intros j Hj. unfold t0. now rewrite E. }
    2:{ intros j Hj. unfold t0. rewrite O. auto. }
    2:{ intros j Hj. unfold t0. replace (4 * n - 2 * j - 1)%Z with (2 * (2 * n - j - 1) + 1)%Z by lia. rewrite O. rewrite <- H2 by lia. f_equal. lia. }
    replace (n * 4)%Z with (2 * (2 * n))%Z by lia.
    set (A := cdft false (2 * (2 * n)) (fun j => cre (t j)) k). set (A0 := cdft false (2 * (2 * n)) (fun j => cre (t0 j)) k).
    replace (fst A - fst A0) with (fst (csub A A0)) by (unfold csub; cbn [fst]; ring).
    eapply Rle_trans; [apply cmod_fst|]. replace (2 * N * e) with (IZR (2 * n) * e) by (rewrite mult_IZR; ring).
    replace (csub A A0) with (csum (2 * n) (fun j => cmul (cre (t (2 * j)%Z)) (root (2 * (2 * n)) (sg false * (k * (2 * j)))))).
    - apply csum_cmod; [lia|]. intros i Hi. rewrite cmod_mul, cmod_root, Rmult_1_r. unfold Cmod, cre. cbn [fst snd].
      replace (t (2 * i)%Z ^ 2 + 0 ^ 2) with (Rsqr (t (2 * i)%Z)) by (unfold Rsqr; ring). rewrite sqrt_Rsqr_abs. auto.
    - unfold A, A0, cdft. rewrite !(csum_even_odd (2 * n)) by lia.
      rewrite (csum_ext (2 * n) (fun j => cmul (cre (t0 (2 * j)%Z)) (root (2 * (2 * n)) (sg false * (k * (2 * j))))) (fun _ => c0)).
      2:{ intros j Hj. unfold t0. rewrite E. apply cplx_eq; cbn; ring. }
      rewrite csum_zero.
      rewrite (csum_ext (2 * n) (fun j => cmul (cre (t0 (2 * j + 1)%Z)) (root (2 * (2 * n)) (sg false * (k * (2 * j + 1))))) (fun j => cmul (cre (t (2 * j + 1)%Z)) (root (2 * (2 * n)) (sg false * (k * (2 * j + 1)))))).
      2:{ intros j Hj. unfold t0. now rewrite O. }
      apply cplx_eq; cbn; ring.
  Qed.

  Lemma forward_bound B M d x out : bpow radix2 (-900) <= B <= bpow radix2 800 -> bpow radix2 (-900) <= M <= bpow radix2 800 ->
    dct_ready dcos dsin n (leak M) d -> real_bounded n B x -> (n <= zlen out)%Z ->
    exists d' out', ddct_forward d x out = OK (d', out') /\ dct_ready dcos dsin n (leak M) d' /\
      within n (u * W * N * (496 * B + 355 * M)) (dct2 n (xs x)) out out'.
  Proof.
    intros HB HM R [Lx Hx] Lo. destruct facts as (W1 & W2 & N1 & N4 & U0 & UV).
    pose proof R as (_ & _ & _ & _ & R5 & R6 & R7 & _).
    destruct (ddct_forward_runs dcos dsin n Hn (leak M) d x out R Lx Lo) as (t & f & fr & fi & d' & Lt & T1 & T2 & T3 & E & E' & R').
    exists d'. eexists. split; [exact E'|]. split; [exact R'|].
    assert (BP : 0 < B) by (destruct HB; eapply Rlt_le_trans; [apply bpow_gt_0|eassumption]).
    assert (MP : 0 < M) by (destruct HM; eapply Rlt_le_trans; [apply bpow_gt_0|eassumption]).
    set (l := 177 * u * W * M). assert (UW : 0 < u * W) by (apply Rmult_lt_0_compat; lra).
    assert (L0 : 0 < l) by (unfold l; replace (177 * u * W * M) with (177 * ((u * W) * M)) by ring; pose proof (Rmult_lt_0_compat _ _ UW MP); lra).
    assert (L1 : l <= 177 / 1000000 * M) by (unfold l; replace (177 * u * W * M) with (177 * ((W * u) * M)) by ring; pose proof (Rmult_le_compat_r M _ _ (Rlt_le _ _ MP) W2); lra).
    assert (HB' : bpow radix2 (-900) <= B + l <= bpow radix2 820).
    { split; [lra|]. change (bpow radix2 820) with (bpow radix2 (20 + 800)). rewrite bpow_plus. change (bpow radix2 20) with 1048576. pose proof (bpow_gt_0 radix2 800). lra. }
    assert (Ht : real_bounded (n * 4) (B + l) t).
    { split; [lia|]. intros j Hj. destruct (Z.Even_or_Odd j) as [[i Ei]|[i Ei]]; subst j.
      - destruct (T1 i ltac:(lia)) as [F V]. split; [exact F|]. fold l in V. lra.
      - destruct (Z.lt_ge_cases i n).
        + rewrite T2 by lia. destruct (Hx i ltac:(lia)). split; [assumption|lra].
        + replace (2 * i + 1)%Z with (4 * n - 2 * (2 * n - 1 - i) - 1)%Z by lia. rewrite T3 by lia. destruct (Hx (2 * n - 1 - i)%Z ltac:(lia)). split; [assumption|lra]. }
    destruct (forward_bins dcos dsin Hcos Hsin (n * 4) ps n4r n4even Hps (B + l) (dd_fft d) t (dd_freq2r d) (dd_freq2i d) HB' R7 Ht ltac:(lia) ltac:(lia))
      as (f2 & fr2 & fi2 & E2 & _ & _ & _ & V). rewrite E in E2. injection E2 as <- <- <-.
    apply within_tab; [lia|exact Lo|]. intros k Hk. destruct (V k ltac:(lia)) as ([F _] & A & _). cbn [fst snd] in F, A. split; [exact F|].
    pose proof (even_value (fun j => dval (zn d0 t j)) (xs x) l k (fun j Hj => proj2 (T1 j Hj)) (fun j Hj => f_equal dval (T2 j Hj)) (fun j Hj => f_equal dval (T3 j Hj))) as D.
    match type of A with Rabs (?a - ?b) <= _ => match type of D with Rabs (_ - ?c) <= _ => replace (a - c) with ((a - b) + (b - c)) by ring end end.
    eapply Rle_trans; [apply Rabs_triang|]. eapply Rle_trans; [apply Rplus_le_compat; [exact A|exact D]|]. rewrite N4.
    replace (124 * u * W * (4 * N) * (B + l)) with (u * W * N * (496 * B + 496 * l)) by ring.
    replace (2 * N * l) with (u * W * N * (354 * M)) by (unfold l; ring). rewrite <- Rmult_plus_distr_l.
    apply Rmult_le_compat_l; [apply Rmult_le_pos; lra|]. lra.
  Qed.

  Lemma inverse_bound P M d y out : bpow radix2 (-900) <= M <= bpow radix2 850 ->
    dct_ready dcos dsin n P d -> real_bounded n M y -> (n <= zlen out)%Z ->
    exists d' out', ddct_inverse d y out = OK (d', out') /\
      dct_ready dcos dsin n (fun x => finite x /\ Rabs (dval x) <= 176 * u * W * M) d' /\
      within n (176 * u * W * M) (idct2 n (xs y)) out out'.
  Proof.
    intros HM R [Ly Hy] Lo. destruct facts as (W1 & W2 & N1 & N4 & U0 & UV).
    pose proof R as (_ & _ & _ & R4 & _ & _ & R7 & _).
    destruct (ddct_inverse_runs dcos dsin n Hn P (fun x => finite x /\ Rabs (dval x) <= 176 * u * W * M) d y out R Ly Lo)
      as (fr & fi & f & t & d' & L1 & L2 & HF & E & Lt & E' & R').
    exists d'. eexists. split; [exact E'|].
    assert (DS : forall k, (0 <= k <= 2 * n)%Z -> finite (zn d0 fr k) /\ dval (zn d0 fr k) = spect n (xs y) k /\ Rabs (dval (zn d0 fr k)) <= M).
    { intros k Hk. destruct (HF k Hk) as [-> _]. unfold dspect, spect.
      assert (MP : 0 < M) by (destruct HM; eapply Rlt_le_trans; [apply bpow_gt_0|eassumption]).
      destruct (Z.ltb_spec k n); [|destruct (Z.eqb_spec k n)].
      - destruct (Hy k ltac:(lia)). auto.
      - split; [reflexivity|]. split; [reflexivity|]. change (dval d0) with 0. rewrite Rabs_R0. lra.
      - destruct (Hy (2 * n - k)%Z ltac:(lia)) as [F V]. unfold finite, dopp, dval in *. rewrite is_finite_Bopp, B2R_Bopp, Rabs_Ropp. auto. }
    assert (HH : half_bounded (n * 4) M fr fi).
    { unfold half_bounded. rewrite n4h by exact n. split; [lia|]. split; [lia|]. intros k Hk. destruct (DS k Hk) as (F & _ & V). destruct (HF k Hk) as [_ ->].
      split; [exact F|]. split; [reflexivity|]. change (dval d0) with 0. rewrite Rmult_0_l, Rplus_0_r.
      rewrite <- (Rabs_pos_eq M) by (eapply Rle_trans; [apply Rabs_pos|exact V]).
      change (Rsqr (dval (zn d0 fr k)) <= Rsqr (Rabs M)). rewrite (Rabs_pos_eq M) by (eapply Rle_trans; [apply Rabs_pos|exact V]).
      apply Rsqr_le_abs_1. rewrite (Rabs_pos_eq M) by (eapply Rle_trans; [apply Rabs_pos|exact V]). exact V. }
    destruct (inverse_bins dcos dsin Hcos Hsin (n * 4) ps n4r n4even Hps M (dd_fft d) fr fi (dd_time2 d) HM R7 HH ltac:(lia)) as (f2 & t2 & E2 & _ & V & _).
    rewrite E in E2. injection E2 as <- <-.
    assert (VT : forall s, (0 <= s < n * 4)%Z -> finite (zn d0 t s) /\
      Rabs (dval (zn d0 t s) - rsum (2 * n) (fun k => spect n (xs y) k * fst (root (4 * n)%Z (k * s)%Z)) * (1 - sgn1 s) / IZR (4 * n)) <= 176 * u * W * M).
    { intros s Hs. destruct (V s Hs) as [F A]. split; [exact F|]. rewrite n4h in A by exact n.
      replace (n * 4)%Z with (2 * (2 * n))%Z in A by lia. rewrite (inv_value n _ (xs y) s) in A; [|lia|].
      - replace (IZR (4 * n)) with (IZR (2 * (2 * n))) by (f_equal; lia). exact A.
      - intros k Hk. destruct (DS k Hk) as (_ & V1 & _). destruct (HF k Hk) as [_ V2]. unfold cre. now rewrite V1, V2. }
    split.
    - apply R'. intros j Hj. destruct (VT (2 * j)%Z ltac:(lia)) as [F A]. split; [exact F|].
      unfold sgn1 in A. replace (Z.even (2 * j)) with true in A by (now rewrite Z.even_mul).
      match type of A with Rabs (?a - ?b) <= _ => replace (a - b) with a in A by (unfold Rdiv; ring) end. exact A.
    - apply within_tab; [lia|exact Lo|]. intros i Hi. destruct (VT (2 * i + 1)%Z ltac:(lia)) as [F A]. split; [exact F|].
      rewrite <- inv_odd by lia.
      unfold sgn1 in A. replace (Z.even (2 * i + 1)) with false in A by (now rewrite Z.add_comm, Z.even_add_mul_2).
      replace (1 - -1) with 2 in A by ring. exact A.
  Qed.
End Bounds.
