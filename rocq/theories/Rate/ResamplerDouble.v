(** Rounding errors of Resampler. *)
From Coq Require Import ZArith Reals Lia Lra Psatz List Bool.
From Flocq Require Import Core.
From Verif.Base Require Import Imp Sums RealOps Dbl Double Loops.
From Verif.Maths Require Import IntModel DoubleModel DoubleProofs StatDoubleSpec StatDoubleProofs DotDouble.
From Verif.Signal Require Import FilterDoubleSpec FilterDoubleStable.
From Verif.Rate Require Import ResamplerModel ResamplerSpec ResamplerProofs.
Import ListNotations.
Open Scope R_scope.

Local Notation u := uro.
Local Notation eta := (bpow radix2 (-1075)).
Definition magnitudes (l : list double) : list R := map (fun d => Rabs (dval d)) l.
Lemma zn_magnitudes (l : list double) t : zn 0 (magnitudes l) t = Rabs (dval (zn d0 l t)).
Proof.
  unfold magnitudes. destruct (Z_lt_le_dec t 0) as [C|C]; [rewrite !zn_out by lia; change (dval d0) with 0; symmetry; apply Rabs_R0|]. destruct (Z_lt_le_dec t (zlen l)) as [D|D].
  - apply (zn_map (fun d => Rabs (dval d)) d0); lia.
  - rewrite !zn_out; [symmetry; apply Rabs_R0|lia|right; zl; lia].
Qed.
Lemma any_within M x t : 0 <= M -> finite_within M x -> finite (zn d0 x t) /\ Rabs (dval (zn d0 x t)) <= M.
Proof.
  intros HM HX. destruct (Z_lt_le_dec t 0) as [C|C]; [|destruct (Z_lt_le_dec t (zlen x)) as [D|D]; [apply HX; lia|]];
    (rewrite zn_out by lia; split; [reflexivity|]; change (dval d0) with 0; rewrite Rabs_R0; exact HM).
Qed.

Lemma interpolated_doubles source target k scale x j v M K : (1 <= source)%Z -> (1 <= target)%Z -> (zlen k <= 2147483647)%Z ->
  0 <= M -> 0 <= K -> finite_within M x -> finite_within K k -> finite scale ->
  IZR (zlen k) * (M * K) <= bpow radix2 990 -> Rabs (dval scale) * (1 + IZR (zlen k) * (M * K)) <= bpow radix2 990 ->
  interpolated d0 dadd dmul source target k scale x j v ->
  exists r w, interpolated 0 Rplus Rmult source target (map dval k) (dval scale) (map dval x) j r /\
    interpolated 0 Rplus Rmult source target (magnitudes k) (Rabs (dval scale)) (magnitudes x) j w /\
    finite v /\ Rabs (dval v - r) <= 1002 / 1000 * (IZR (zlen k) + 1) * u * w + (Rabs (dval scale) * IZR (zlen k) + 1) * bpow radix2 (-1073).
Proof.
  intros Hs Ht Hk HM HK HX HF Fs L1 L2 (m0 & cnt & Hc & HI & EV). cbv zeta in HI, EV.
  set (t := reduced_target source target) in *. set (q := reduced_source source target) in *.
  set (at_ := fun m => (zlen k / 2 + m * t - j * q)%Z) in *.
  assert (T1 : (1 <= t)%Z).
  { unfold t, reduced_target. assert (0 < Z.gcd source target)%Z by (pose proof (Z.gcd_nonneg source target); assert (Z.gcd source target <> 0)%Z by (intros E; apply Z.gcd_eq_0_l in E; lia); lia).
    apply Z.div_le_lower_bound; [lia|]. rewrite Z.mul_1_r. apply Z.divide_pos_le; [lia|]. apply Z.gcd_divide_r. }
  assert (CK : (cnt <= zlen k)%Z).
  { destruct (Z.eq_dec cnt 0) as [->|N]; [apply zlen_nonneg|]. pose proof (proj1 (HI m0) ltac:(lia)). pose proof (proj1 (HI (m0 + cnt - 1)%Z) ltac:(lia)).
    assert ((cnt - 1) * 1 <= (cnt - 1) * t)%Z by (apply Z.mul_le_mono_nonneg_l; lia). unfold at_ in *. nia. }
  set (f := fun i => zn d0 x (m0 + i)) in *. set (g := fun i => zn d0 k (at_ (m0 + i)%Z)) in *.
  set (S := rsum cnt (fun i => dval (f i) * dval (g i))). set (T := total cnt (fun i => dval (f i) * dval (g i))).
  exists (dval scale * S), (Rabs (dval scale) * T). split; [|split].
  - exists m0, cnt. split; [exact Hc|]. cbv zeta. assert (LK : zlen (map dval k) = zlen k) by (zl; reflexivity). rewrite LK. split; [exact HI|].
    f_equal. apply rsum_ext. intros i Hi. rewrite !zn_values. reflexivity.
  - exists m0, cnt. split; [exact Hc|]. cbv zeta. assert (LK : zlen (magnitudes k) = zlen k) by (unfold magnitudes; zl; reflexivity). rewrite LK. split; [exact HI|].
    f_equal. apply rsum_ext. intros i Hi. rewrite !zn_magnitudes, Rabs_mult. reflexivity.
  - assert (FG : forall i, (finite (f i) /\ Rabs (dval (f i)) <= M) /\ finite (g i) /\ Rabs (dval (g i)) <= K) by (intros i; split; apply any_within; assumption).
    assert (C0 : 0 <= IZR cnt) by (apply IZR_le; lia). assert (C1 : IZR cnt <= IZR (zlen k)) by (apply IZR_le; exact CK).
    assert (MK : 0 <= M * K) by (apply Rmult_le_pos; assumption).
    assert (TB : T <= IZR (zlen k) * (M * K)).
    { apply Rle_trans with (IZR cnt * (M * K)); [|apply Rmult_le_compat_r; assumption]. unfold T, total. rewrite <- rsum_const by exact Hc. apply rsum_le. intros i Hi.
      rewrite Rabs_mult. destruct (FG i) as [[_ A] [_ B]]. apply Rmult_le_compat; auto using Rabs_pos. }
    assert (T0 : 0 <= T) by apply total_pos.
    destruct (dot_doubles cnt f g) as [FS ES]; [lia|intros i _; destruct (FG i) as [[A _] [B _]]; split; assumption| |].
    { fold T. eapply Rle_trans; [exact TB|]. eapply Rle_trans; [exact L1|]. apply bpow_le. lia. }
    fold S T in ES. set (s := fsum d0 dadd cnt (fun j => dmul (f j) (g j))) in *.
    change (fsum d0 dadd cnt _) with s in EV. subst v.
    pose proof uro_pos as U. pose proof uro_val as UV. assert (ET : 0 < eta) by apply bpow_gt_0.
    assert (N1 : IZR (zlen k) <= 2147483647) by (apply IZR_le; exact Hk). set (N := IZR (zlen k)) in *. set (C := IZR cnt) in *. set (A := Rabs (dval scale)) in *.
    assert (A0 : 0 <= A) by apply Rabs_pos. assert (SB : Rabs S <= T) by apply rsum_abs.
    assert (NE : N * eta <= / 4).
    { apply Rle_trans with (bpow radix2 31 * eta); [apply Rmult_le_compat_r; [lra|change (bpow radix2 31) with 2147483648; lra]|]. rewrite <- bpow_plus. change (/ 4) with (bpow radix2 (-2)). apply bpow_le. lia. }
    assert (CE : C * eta <= N * eta) by (apply Rmult_le_compat_r; lra).
    assert (CU : C * u <= / 2000) by (rewrite UV; lra). assert (CT : C * u * T <= / 2000 * T) by (apply Rmult_le_compat_r; lra).
    assert (SV : Rabs (dval s) <= 1001 / 1000 * T + 2 * (C * eta)) by (pose proof (near' _ _ _ _ ES SB); lra).
    assert (PV : Rabs (dval scale * dval s) <= A * (1001 / 1000 * T + 2 * (C * eta))) by (rewrite Rabs_mult; apply Rmult_le_compat_l; assumption).
    assert (PB : A * (1001 / 1000 * T + 2 * (C * eta)) <= 2 * bpow radix2 990).
    { apply Rle_trans with (A * (2 * (1 + N * (M * K)))); [apply Rmult_le_compat_l; lra|]. lra. }
    destruct (dmul_ok scale s Fs FS) as [FP VP].
    { apply (small_huge _ 991); [|lia]. change 991%Z with (1 + 990)%Z. rewrite bpow_plus. change (bpow radix2 1) with 2. lra. }
    split; [exact FP|]. rewrite VP. replace (rnd (dval scale * dval s) - dval scale * S) with ((rnd (dval scale * dval s) - dval scale * dval s) + dval scale * (dval s - S)) by ring.
    eapply Rle_trans; [apply Rabs_triang|]. rewrite (Rabs_mult (dval scale) (dval s - S)). fold A. pose proof (rnd_error (dval scale * dval s)) as ER.
    assert (E1 : A * Rabs (dval s - S) <= A * (1001 / 1000 * C * u * T + 2 * C * eta)) by (apply Rmult_le_compat_l; assumption).
    assert (E2 : u * Rabs (dval scale * dval s) <= u * (A * (1001 / 1000 * T + 2 * (C * eta)))) by (apply Rmult_le_compat_l; lra).
    assert (AC : 0 <= A * (C * eta)) by (apply Rmult_le_pos; [exact A0|apply Rmult_le_pos; lra]).
    assert (E3 : u * (A * (C * eta)) <= / 2000 * (A * (C * eta))) by (apply Rmult_le_compat_r; [exact AC|rewrite UV; lra]).
    assert (E4 : A * (C * eta) <= A * (N * eta)) by (apply Rmult_le_compat_l; assumption).
    assert (AT : 0 <= u * (A * T)) by (apply Rmult_le_pos; [lra|apply Rmult_le_pos; assumption]).
    assert (E5 : C * (u * (A * T)) <= N * (u * (A * T))) by (apply Rmult_le_compat_r; assumption).
    assert (E6 : 0 <= C * (u * (A * T))) by (apply Rmult_le_pos; assumption).
    change (-1073)%Z with (2 + -1075)%Z. rewrite (bpow_plus radix2 2). change (bpow radix2 2) with 4. lra.
Qed.

Theorem resampler_doubles source target k scale calls M K : (1 <= source <= INT_MAX)%Z -> (1 <= target <= INT_MAX)%Z ->
  (reduced_target source target <= zlen k)%Z -> (reduced_source source target <= zlen k <= 2147483647)%Z -> room source target calls ->
  0 <= M -> 0 <= K -> finite_within M (fed calls) -> finite_within K k -> finite scale ->
  IZR (zlen k) * (M * K) <= bpow radix2 990 -> Rabs (dval scale) * (1 + IZR (zlen k) * (M * K)) <= bpow radix2 990 ->
  exists r0 r outs, resampler_new d0 source target k scale = OK r0 /\ resampler_run d0 dadd dmul r0 calls = OK (r, outs) /\
    within d0 source target calls outs /\ is_latency source target k (r_latency r0) /\
    (forall c, is_ceil (zlen (fed calls) * target) source c -> (c <= zlen (written outs) <= c + 1)%Z) /\
    forall j, (0 <= j < zlen (written outs))%Z -> exists v w,
      interpolated 0 Rplus Rmult source target (map dval k) (dval scale) (map dval (fed calls)) (j - r_latency r0) v /\
      interpolated 0 Rplus Rmult source target (magnitudes k) (Rabs (dval scale)) (magnitudes (fed calls)) (j - r_latency r0) w /\
      finite (zn d0 (written outs) j) /\
      Rabs (dval (zn d0 (written outs) j) - v) <= 1002 / 1000 * (IZR (zlen k) + 1) * uro * w + (Rabs (dval scale) * IZR (zlen k) + 1) * bpow radix2 (-1073).
Proof.
  intros Hs Ht Ha Hb HR HM HK HX HF Fs L1 L2.
  destruct (resampler_stream d0 dadd dmul source target k scale Hs Ht Ha (proj1 Hb) calls HR) as (r0 & r & outs & lat & E0 & E1 & <- & E3 & E4 & E5 & E6).
  exists r0, r, outs. split; [exact E0|]. split; [exact E1|]. split; [exact E4|]. split; [exact E3|]. split; [exact E5|].
  intros j Hj. apply (interpolated_doubles source target k scale (fed calls) (j - r_latency r0) _ M K); auto; lia.
Qed.
