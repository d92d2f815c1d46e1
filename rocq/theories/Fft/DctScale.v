(** Class DCT in IEEE doubles: the scale factors. *)
From Coq Require Import ZArith Reals Lia Lra Psatz List Bool Znumtheory.
From Flocq Require Import Core.
From Verif.Base Require Import Imp Sums RealOps Dbl Double Loops.
From Verif.Maths Require Import DoubleModel DoubleProofs.
From Verif.Fft Require Import FftSpec FftDouble FftDoubleSpec FftDoubleProofs FftrDouble FftrDoubleSpec FftrTwiddle DctMath DctProofs DctDouble DctDoubleSpec DctDoubleRuns DctDoubleProofs.
Import ListNotations.
Open Scope R_scope.

Local Notation u := uro.

Lemma u_facts : 0 < u /\ u = / 9007199254740992.
Proof. split; [apply uro_pos|apply uro_val]. Qed.
Lemma tiny k : (k <= 0)%Z -> bpow radix2 k <= 1.
Proof. intros H. change 1 with (bpow radix2 0). now apply bpow_le. Qed.
(** Rounding a positive quantity that is not tiny. *)
Lemma rnd_pos v : bpow radix2 (-900) <= v -> Rabs (rnd v - v) <= 1001 / 1000 * u * v.
Proof.
  intros H. assert (0 < v) by (eapply Rlt_le_trans; [apply bpow_gt_0|exact H]).
  eapply Rle_trans; [apply (rnd_unit v 1 v H)|]; [rewrite Rabs_pos_eq; lra|]. lra.
Qed.
Lemma sqrt_step a v : 0 <= a -> 0 < v -> Rabs (sqrt a - sqrt v) <= Rabs (a - v) / sqrt v.
Proof.
  intros Ha Hv. assert (S : 0 < sqrt v) by now apply sqrt_lt_R0. pose proof (sqrt_pos a) as A.
  replace (a - v) with ((sqrt a - sqrt v) * (sqrt a + sqrt v)).
  2:{ transitivity (sqrt a * sqrt a - sqrt v * sqrt v); [ring|]. rewrite !sqrt_sqrt by lra. reflexivity. }
  rewrite Rabs_mult, (Rabs_pos_eq (sqrt a + sqrt v)) by lra. apply Rmult_le_reg_r with (sqrt v); [exact S|].
  unfold Rdiv. rewrite Rmult_assoc, Rinv_l, Rmult_1_r by lra. apply Rmult_le_compat_l; [apply Rabs_pos|lra].
Qed.
Lemma rdiv_le a b c : 0 < b -> a <= c * b -> a / b <= c.
Proof. intros Hb H. apply Rmult_le_reg_r with b; [exact Hb|]. unfold Rdiv. rewrite Rmult_assoc, Rinv_l, Rmult_1_r by lra. exact H. Qed.
Lemma sqrt2_bounds : 14142 / 10000 <= sqrt 2 <= 14143 / 10000.
Proof.
  split.
  - rewrite <- (sqrt_Rsqr (14142 / 10000)) by lra. apply sqrt_le_1_alt. unfold Rsqr. lra.
  - rewrite <- (sqrt_Rsqr (14143 / 10000)) by lra. apply sqrt_le_1_alt. unfold Rsqr. lra.
Qed.

Lemma root2_ok : finite droot2 /\ Rabs (dval droot2 - sqrt 2) <= 1001 / 1000 * u * sqrt 2.
Proof.
  destruct (dint_ok 2) as [F V]; [reflexivity|]. destruct (dsqrt_ok (dint 2) F) as [F' V']; [rewrite V; lra|].
  split; [exact F'|]. unfold droot2. rewrite V', V. apply rnd_pos. pose proof sqrt2_bounds. pose proof (tiny (-900) ltac:(lia)). lra.
Qed.

Section Scale.
  Context (n : Z) (Hn : (1 <= n <= 2 ^ 28)%Z).
  Notation N := (IZR n).
  Notation S := (sqrt (2 * N)).
  Lemma NB : 1 <= N <= 268435456.
  Proof. change (2 ^ 28)%Z with 268435456%Z in Hn. split; apply IZR_le; lia. Qed.
  Lemma S_eq : N * sqrt (2 / N) = S.
  Proof.
    pose proof NB. rewrite <- (sqrt_Rsqr N) at 1 by lra. rewrite <- sqrt_mult_alt by apply Rle_0_sqr. f_equal. unfold Rsqr. field. lra.
  Qed.
  Lemma S_bounds : 14142 / 10000 <= S <= 32768 /\ S * S = 2 * N.
  Proof.
    pose proof NB. split; [|apply sqrt_sqrt; lra]. split.
    - eapply Rle_trans; [apply sqrt2_bounds|]. apply sqrt_le_1_alt. lra.
    - rewrite <- (sqrt_Rsqr 32768) by lra. apply sqrt_le_1_alt. unfold Rsqr. lra.
  Qed.
  Lemma S_root : S = sqrt 2 * sqrt N.
  Proof. pose proof NB. apply sqrt_mult; lra. Qed.

  Lemma scale_value : finite (ddct_scale n) /\ Rabs (dval (ddct_scale n) - S) <= 31 / 10 * u * S.
  Proof.
    pose proof NB as B. destruct u_facts as [U0 UV]. pose proof S_bounds as [SB SS].
    destruct (dint_ok 2) as [F2 V2]; [reflexivity|]. destruct (dint_ok n) as [Fn Vn]; [change (2 ^ 28)%Z with 268435456%Z in Hn; unfold two53; lia|].
    set (v := 2 / N). assert (VB : bpow radix2 (-28) <= v <= 2).
    { change (bpow radix2 (-28)) with (/ 268435456). unfold v. split.
      - apply Rmult_le_reg_r with N; [lra|]. unfold Rdiv. rewrite (Rmult_assoc 2), Rinv_l, Rmult_1_r by lra. lra.
      - apply Rmult_le_reg_r with N; [lra|]. unfold Rdiv. rewrite (Rmult_assoc 2), Rinv_l, Rmult_1_r by lra. lra. }
    assert (V0 : 0 < v) by (destruct VB as [VB _]; eapply Rlt_le_trans; [apply bpow_gt_0|exact VB]).
    destruct (ddiv_ok (dint 2) (dint n) F2) as [Fa Va]; [rewrite Vn; lra|rewrite V2, Vn; apply (small_huge _ 1); [fold v; rewrite Rabs_pos_eq by lra; change (bpow radix2 1) with 2; lra|lia]|].
    rewrite V2, Vn in Va. fold v in Va. set (a := ddiv (dint 2) (dint n)) in *.
    assert (Ea : Rabs (dval a - v) <= 1001 / 1000 * u * v) by (rewrite Va; apply rnd_pos; destruct VB as [VB _]; eapply Rle_trans; [|exact VB]; apply bpow_le; lia).
    assert (A0 : 0 <= dval a).
    { apply Rabs_le_inv in Ea. assert (1001 / 1000 * u * v <= v) by (assert (1001 / 1000 * u <= 1) by lra; rewrite <- (Rmult_1_l v) at 2; apply Rmult_le_compat_r; lra). lra. }
    destruct (dsqrt_ok a Fa A0) as [Fb Vb]. set (b := dsqrt a) in *. set (q := sqrt v).
    assert (Q0 : 0 < q) by (now apply sqrt_lt_R0). assert (QQ : q * q = v) by (apply sqrt_sqrt; lra).
    assert (SQ : N * q = S) by apply S_eq.
    assert (E1 : Rabs (sqrt (dval a) - q) <= 1001 / 1000 * u * q).
    { eapply Rle_trans; [apply sqrt_step; assumption|]. fold q. apply rdiv_le; [exact Q0|].
      eapply Rle_trans; [exact Ea|]. rewrite (Rmult_assoc (1001 / 1000 * u) q q), QQ. apply Rle_refl. }
    assert (QB : bpow radix2 (-28) <= q).
    { change (bpow radix2 (-28)) with (/ 268435456) in VB |- *. rewrite <- (sqrt_Rsqr (/ 268435456)) by lra. apply sqrt_le_1_alt. unfold Rsqr. lra. }
    assert (Uq : u * q <= 1 / 1000000 * q) by (apply Rmult_le_compat_r; lra). assert (Uq0 : 0 < u * q) by (apply Rmult_lt_0_compat; lra).
    assert (E2 : Rabs (dval b - sqrt (dval a)) <= 1002 / 1000 * (u * q)).
    { rewrite Vb. assert (SA : Rabs (sqrt (dval a)) <= (1 + 1 / 10000) * q) by (eapply Rle_trans; [eapply near'; [exact E1|rewrite Rabs_pos_eq; [apply Rle_refl|lra]]|]; lra).
      eapply Rle_trans; [apply (rnd_unit _ (1 + 1 / 10000) q)|]; [eapply Rle_trans; [|exact QB]; apply bpow_le; lia|exact SA|]. lra. }
    assert (E3 : Rabs (dval b - q) <= 2004 / 1000 * (u * q)).
    { replace (dval b - q) with ((dval b - sqrt (dval a)) + (sqrt (dval a) - q)) by ring. eapply Rle_trans; [apply Rabs_triang|]. lra. }
    assert (E4 : Rabs (N * dval b - S) <= 2004 / 1000 * (u * S)).
    { rewrite <- SQ. rewrite <- Rmult_minus_distr_l, Rabs_mult, (Rabs_pos_eq N) by lra. replace (2004 / 1000 * (u * (N * q))) with (N * (2004 / 1000 * (u * q))) by ring.
      apply Rmult_le_compat_l; [lra|exact E3]. }
    assert (US : u * S <= 1 / 1000000 * S) by (apply Rmult_le_compat_r; lra). assert (US0 : 0 < u * S) by (apply Rmult_lt_0_compat; lra).
    assert (BS : Rabs (N * dval b) <= (1 + 1 / 10000) * S) by (eapply Rle_trans; [eapply near'; [exact E4|rewrite Rabs_pos_eq; [apply Rle_refl|lra]]|]; lra).
    destruct (dmul_ok (dint n) b Fn Fb) as [Fc Vc].
    { rewrite Vn. apply (small_huge _ 20); [|lia]. change (bpow radix2 20) with 1048576. lra. }
    split; [exact Fc|]. unfold ddct_scale. fold a b. rewrite Vc, Vn.
    assert (E5 : Rabs (rnd (N * dval b) - N * dval b) <= 1002 / 1000 * (u * S)).
    { eapply Rle_trans; [apply (rnd_unit _ (1 + 1 / 10000) S)|]; [pose proof (tiny (-900) ltac:(lia)); lra|exact BS|]. lra. }
    replace (rnd (N * dval b) - S) with ((rnd (N * dval b) - N * dval b) + (N * dval b - S)) by ring. eapply Rle_trans; [apply Rabs_triang|]. lra.
  Qed.

  (** Dividing by something nearly s: exact value Y of magnitude V, error e. *)
  Lemma div_near y d s Y e V : finite y -> 1 <= s -> Rabs (dval d - s) <= 31 / 10 * u * s -> Rabs (dval y - Y) <= e -> Rabs Y <= V ->
    e <= V -> bpow radix2 (-800) <= V <= bpow radix2 900 -> s <= 32768 ->
    finite (ddiv y d) /\ Rabs (dval (ddiv y d) - Y / s) <= (1001 / 1000 * e + 43 / 10 * u * V) / s.
  Proof.
    intros F Hs D E HY He HV S2. destruct u_facts as [U0 UV].
    assert (E0 : 0 <= e) by (eapply Rle_trans; [apply Rabs_pos|exact E]). destruct HV as [V1 V2].
    assert (VP : 0 < V) by (eapply Rlt_le_trans; [apply bpow_gt_0|exact V1]).
    assert (Us : u * s <= 1 / 1000000 * s) by (apply Rmult_le_compat_r; lra). assert (Us0 : 0 < u * s) by (apply Rmult_lt_0_compat; lra).
    assert (DB : (1 - 1 / 100000) * s <= dval d) by (apply Rabs_le_inv in D; lra). assert (D0 : 0 < dval d) by lra.
    set (x := dval y) in *. set (t := dval d) in *.
    assert (XB : Rabs x <= V + e) by (eapply near'; [exact E|exact HY]).
    assert (UV0 : 0 < u * V) by (apply Rmult_lt_0_compat; lra). assert (UV1 : u * V <= 1 / 1000000 * V) by (apply Rmult_le_compat_r; lra).
    assert (Ue : u * e <= 1 / 1000000 * e) by (apply Rmult_le_compat_r; lra).
    (* exact quotients *)
    assert (Q : Rabs (x / t - Y / s) <= ((1 + 1 / 50000) * e + 311 / 100 * u * V) / s).
    { replace (x / t - Y / s) with ((x - Y) / t + Y * ((s - t) / (t * s))) by (field; lra).
      eapply Rle_trans; [apply Rabs_triang|].
      replace (((1 + 1 / 50000) * e + 311 / 100 * u * V) / s) with ((1 + 1 / 50000) * e / s + 311 / 100 * u * V / s) by (field; lra).
      apply Rplus_le_compat.
      - unfold Rdiv at 1. rewrite Rabs_mult, (Rabs_pos_eq (/ t)) by (apply Rlt_le, Rinv_0_lt_compat; lra).
        apply Rle_trans with (e * / t); [apply Rmult_le_compat_r; [apply Rlt_le, Rinv_0_lt_compat; lra|exact E]|].
        change (e / t <= (1 + 1 / 50000) * e / s). apply rdiv_le; [exact D0|].
        replace ((1 + 1 / 50000) * e / s * t) with ((1 + 1 / 50000) * e * (t / s)) by (field; lra).
        assert (1 - 1 / 100000 <= t / s) by (apply Rmult_le_reg_r with s; [lra|]; unfold Rdiv at 2; rewrite Rmult_assoc, Rinv_l, Rmult_1_r by lra; exact DB).
        apply Rle_trans with ((1 + 1 / 50000) * e * (1 - 1 / 100000)); [lra|]. apply Rmult_le_compat_l; lra.
      - rewrite Rabs_mult. unfold Rdiv at 1. rewrite Rabs_mult, (Rabs_pos_eq (/ (t * s))) by (apply Rlt_le, Rinv_0_lt_compat, Rmult_lt_0_compat; lra).
        rewrite (Rabs_minus_sym s t). apply Rle_trans with (V * (31 / 10 * u * s * / (t * s))).
        + apply Rmult_le_compat; [apply Rabs_pos|apply Rmult_le_pos; [apply Rabs_pos|apply Rlt_le, Rinv_0_lt_compat, Rmult_lt_0_compat; lra]|exact HY|].
          apply Rmult_le_compat_r; [apply Rlt_le, Rinv_0_lt_compat, Rmult_lt_0_compat; lra|exact D].
        + replace (V * (31 / 10 * u * s * / (t * s))) with (31 / 10 * u * V / t) by (field; lra). apply rdiv_le; [exact D0|].
          replace (311 / 100 * u * V / s * t) with (311 / 100 * (u * V) * (t / s)) by (field; lra).
          assert (1 - 1 / 100000 <= t / s) by (apply Rmult_le_reg_r with s; [lra|]; unfold Rdiv at 2; rewrite Rmult_assoc, Rinv_l, Rmult_1_r by lra; exact DB).
          apply Rle_trans with (311 / 100 * (u * V) * (1 - 1 / 100000)); [lra|]. apply Rmult_le_compat_l; lra. }
    assert (IS : 0 < / s) by (apply Rinv_0_lt_compat; lra).
    assert (YS : Rabs (Y / s) <= V / s) by (unfold Rdiv; rewrite Rabs_mult, (Rabs_pos_eq (/ s)) by lra; apply Rmult_le_compat_r; lra).
    set (K := V / s). assert (K0 : 0 < K) by (unfold K; apply Rdiv_lt_0_compat; lra). set (k := e / s). assert (k0 : 0 <= k) by (unfold k, Rdiv; apply Rmult_le_pos; lra).
    assert (kK : k <= K) by (unfold k, K, Rdiv; apply Rmult_le_compat_r; lra).
    replace (((1 + 1 / 50000) * e + 311 / 100 * u * V) / s) with ((1 + 1 / 50000) * k + 311 / 100 * (u * K)) in Q by (unfold k, K; field; lra).
    replace ((1001 / 1000 * e + 43 / 10 * u * V) / s) with (1001 / 1000 * k + 43 / 10 * (u * K)) by (unfold k, K; field; lra).
    fold K in YS.
    assert (UK0 : 0 < u * K) by (apply Rmult_lt_0_compat; lra). assert (UK1 : u * K <= 1 / 1000000 * K) by (apply Rmult_le_compat_r; lra).
    assert (Uk : u * k <= 1 / 1000000 * k) by (apply Rmult_le_compat_r; lra).
    assert (XT : Rabs (x / t) <= (1 + 1 / 1000) * K + (1 + 1 / 1000) * k) by (eapply Rle_trans; [eapply near'; [exact Q|exact YS]|]; lra).
    assert (KB : bpow radix2 (-900) <= K <= bpow radix2 900).
    { unfold K. split.
      - apply Rmult_le_reg_r with s; [lra|]. unfold Rdiv. rewrite Rmult_assoc, Rinv_l, Rmult_1_r by lra. apply Rle_trans with (bpow radix2 (-900) * 32768); [apply Rmult_le_compat_l; [apply bpow_ge_0|exact S2]|].
        change 32768 with (bpow radix2 15). rewrite <- bpow_plus. eapply Rle_trans; [|exact V1]. apply bpow_le. lia.
      - apply rdiv_le; [lra|]. apply Rle_trans with (bpow radix2 900 * 1); [lra|]. apply Rmult_le_compat_l; [apply bpow_ge_0|exact Hs]. }
    destruct KB as [KB1 KB2].
    destruct (ddiv_ok y d F) as [Fq Vq]; fold x t.
    - lra.
    - apply (small_huge _ 910); [|lia]. change (bpow radix2 910) with (bpow radix2 (10 + 900)). rewrite bpow_plus. change (bpow radix2 10) with 1024. lra.
    - split; [exact Fq|]. rewrite Vq. fold x t.
      assert (RD : Rabs (rnd (x / t) - x / t) <= u * (1 + /1000) * ((1 + 1 / 1000) * K + (1 + 1 / 1000) * k)).
      { apply rnd_unit; [lra|]. rewrite Rmult_1_l. exact XT. }
      replace (rnd (x / t) - Y / s) with ((rnd (x / t) - x / t) + (x / t - Y / s)) by ring. eapply Rle_trans; [apply Rabs_triang|].
      eapply Rle_trans; [apply Rplus_le_compat; [exact RD|exact Q]|].
      replace (u * (1 + /1000) * ((1 + 1 / 1000) * K + (1 + 1 / 1000) * k)) with ((1 + /1000) * (1 + 1 / 1000) * (u * K) + (1 + /1000) * (1 + 1 / 1000) * (u * k)) by ring. lra.
  Qed.

  (** Multiplying by something nearly s. *)
  Lemma mul_near y d s Y e V r : finite y -> finite d -> 1 <= s -> Rabs (dval d - s) <= r * u * s -> 0 <= r <= 31 / 10 -> Rabs (dval y - Y) <= e -> Rabs Y <= V ->
    e <= 1 / 1000 * V -> bpow radix2 (-850) <= V * s <= bpow radix2 900 ->
    finite (dmul y d) /\ Rabs (dval (dmul y d) - Y * s) <= (1001 / 1000 * e + (r + 1003 / 1000) * u * V) * s.
  Proof.
    intros F Fd Hs D Hr E HY He HV. destruct u_facts as [U0 UV].
    assert (E0 : 0 <= e) by (eapply Rle_trans; [apply Rabs_pos|exact E]). destruct HV as [V1 V2].
    assert (VP : 0 <= V) by (eapply Rle_trans; [apply Rabs_pos|exact HY]).
    set (x := dval y) in *. set (t := dval d) in *. set (K := V * s). set (k := e * s).
    assert (K0 : 0 <= K) by (unfold K; apply Rmult_le_pos; lra). assert (k0 : 0 <= k) by (unfold k; apply Rmult_le_pos; lra).
    assert (kK : k <= 1 / 1000 * K) by (unfold k, K; rewrite <- Rmult_assoc; apply Rmult_le_compat_r; lra).
    assert (UK0 : 0 <= u * K) by (apply Rmult_le_pos; lra). assert (UK1 : u * K <= 1 / 1000000 * K) by (apply Rmult_le_compat_r; lra).
    assert (Uk : u * k <= 1 / 1000000 * k) by (apply Rmult_le_compat_r; lra). assert (Uk0 : 0 <= u * k) by (apply Rmult_le_pos; lra).
    assert (XB : Rabs x <= V + e) by (eapply near'; [exact E|exact HY]).
    assert (rK : 0 <= r * (u * K)) by (apply Rmult_le_pos; lra). assert (rk : r * (u * k) <= 31 / 10 * (u * k)) by (apply Rmult_le_compat_r; lra).
    assert (rK' : r * (u * K) <= 31 / 10 * (u * K)) by (apply Rmult_le_compat_r; lra).
    assert (Q : Rabs (x * t - Y * s) <= k + (r * (u * K) + r * (u * k))).
    { replace (x * t - Y * s) with ((x - Y) * s + x * (t - s)) by ring. eapply Rle_trans; [apply Rabs_triang|]. apply Rplus_le_compat.
      - rewrite Rabs_mult, (Rabs_pos_eq s) by lra. unfold k. apply Rmult_le_compat_r; lra.
      - rewrite Rabs_mult. apply Rle_trans with ((V + e) * (r * u * s)); [apply Rmult_le_compat; auto using Rabs_pos|]. right. unfold K, k. ring. }
    assert (YS : Rabs (Y * s) <= K) by (unfold K; rewrite Rabs_mult, (Rabs_pos_eq s) by lra; apply Rmult_le_compat_r; lra).
    assert (XT : Rabs (x * t) <= (1 + 11 / 10000) * K) by (eapply Rle_trans; [eapply near'; [exact Q|exact YS]|]; lra).
    fold K in V1, V2.
    destruct (dmul_ok y d F Fd) as [Fq Vq]; fold x t.
    - apply (small_huge _ 910); [|lia]. change (bpow radix2 910) with (bpow radix2 (10 + 900)). rewrite bpow_plus. change (bpow radix2 10) with 1024. lra.
    - split; [exact Fq|]. rewrite Vq. fold x t.
      assert (RD : Rabs (rnd (x * t) - x * t) <= u * (1 + 11 / 10000 + /1000) * K).
      { apply rnd_unit; [eapply Rle_trans; [|exact V1]; apply bpow_le; lia|exact XT]. }
      replace (rnd (x * t) - Y * s) with ((rnd (x * t) - x * t) + (x * t - Y * s)) by ring. eapply Rle_trans; [apply Rabs_triang|].
      eapply Rle_trans; [apply Rplus_le_compat; [exact RD|exact Q]|].
      replace ((1001 / 1000 * e + (r + 1003 / 1000) * u * V) * s) with (1001 / 1000 * k + r * (u * K) + 1003 / 1000 * (u * K)) by (unfold k, K; ring). lra.
  Qed.
End Scale.
