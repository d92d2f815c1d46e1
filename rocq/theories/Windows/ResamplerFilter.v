(** The filter the Resampler builds (Resampler.cpp:58-86) over exact reals. *)
From Coq Require Import List ZArith Reals Lia Lra Psatz Bool.
From Verif.Base Require Import Imp Sums RealOps.
From Verif.Maths Require Import IntModel IntSpec IntProofs RealModel RealProofs.
From Verif.Windows Require Import WindowModel WindowSpec WindowProofs.
From Verif.Rate Require Import ResamplerModel ResamplerSpec ResamplerProofs.
Import ListNotations.
Open Scope Z_scope.

(** Resampler(source, target, snr, bandwidth) in full; the gain is line 309. *)
Definition resampler_make (source target : Z) (snr bandwidth : R) : res (rsm R) :=
  '(filter, p2p) <- resampler_filter source target snr bandwidth ;;
  g <- gcd_c (S (Z.to_nat (Z.max source target))) (Z.min source target) (Z.max source target) ;;
  resampler_new 0%R source target filter (IZR target / IZR g / p2p)%R.

(** [filter] is a sinc with zero crossings every [p] points, tapered by a Kaiser window. *)
Definition windowed_sinc (filter : list R) (p beta : R) : Prop :=
  Z.odd (zlen filter) = true /\
  forall i, 0 <= i < zlen filter ->
    let d := IZR (i - zlen filter / 2) in
    Wn filter i = (sinc (PI * d / p) * kaiser_at beta (IZR (zlen filter / 2)) d)%R.

Definition filter_length (higher : Z) (snr bandwidth : R) : Z :=
  let len := fst (kaiser_bandwidth snr bandwidth (IZR higher)) in
  let len := if Z.rem len 2 =? 0 then len + 1 else len in
  if 200001 <? len then 200001 else len.

Lemma reduced_gcd source target : 1 <= source <= INT_MAX -> 1 <= target <= INT_MAX ->
  gcd_c (S (Z.to_nat (Z.max source target))) (Z.min source target) (Z.max source target) = OK (Z.gcd source target) /\
  Z.quot (Z.max source target) (Z.gcd source target) = Z.max (reduced_source source target) (reduced_target source target).
Proof.
  intros Hs Ht. split.
  - rewrite gcd_spec by lia. f_equal. destruct (Z.le_gt_cases source target); [now rewrite Z.min_l, Z.max_r by lia|].
    rewrite Z.min_r, Z.max_l by lia. apply Z.gcd_comm.
  - pose proof (g_pos source target Ht) as G. pose proof (a_eq source target Ht) as A. pose proof (b_eq source target Ht) as B.
    unfold reduced_source, reduced_target in *.
    rewrite Z.quot_div_nonneg by lia. set (g := Z.gcd source target) in *.
    destruct (Z.le_gt_cases source target).
    + rewrite Z.max_r by lia. rewrite Z.max_r; [reflexivity|]. apply Z.div_le_mono; lia.
    + rewrite Z.max_l by lia. rewrite Z.max_l; [reflexivity|]. apply Z.div_le_mono; lia.
Qed.

Lemma filter_ok source target snr bandwidth :
  1 <= source <= INT_MAX -> 1 <= target <= INT_MAX -> (0 < bandwidth < 2)%R ->
  let H := Z.max (reduced_source source target) (reduced_target source target) in
  let len := filter_length H snr bandwidth in
  let beta := snd (kaiser_bandwidth snr bandwidth (IZR H)) in
  let p := (if target <? source then IZR H / (1 - bandwidth / 2) else IZR H)%R in
  3 <= len ->
  exists f, resampler_filter source target snr bandwidth = OK (f, p) /\ zlen f = len /\ windowed_sinc f p beta.
Proof.
  intros Hs Ht Hbw H len beta p Hlen. unfold resampler_filter.
  destruct (reduced_gcd source target Hs Ht) as [E1 E2]. rewrite E1. cbn [bind]. rewrite E2. fold H.
  destruct (kaiser_bandwidth snr bandwidth (IZR H)) as [l0 b0] eqn:Ek.
  assert (El : (if 200001 <? (if Z.rem l0 2 =? 0 then l0 + 1 else l0) then 200001 else (if Z.rem l0 2 =? 0 then l0 + 1 else l0)) = len).
  { unfold len, filter_length. rewrite Ek. reflexivity. }
  rewrite El. fold p.
  assert (Eb : b0 = beta) by (unfold beta; reflexivity). rewrite Eb.
  assert (HH : 1 <= H) by (unfold H; pose proof (b_pos source target Hs Ht); lia).
  assert (HR : (0 < IZR H)%R) by (apply IZR_lt; lia).
  assert (Hp : (0 < p)%R) by (unfold p; destruct (target <? source); [apply Rdiv_lt_0_compat; lra|lra]).
  rewrite kaiser_ok by lia. cbn [bind]. rewrite sinc_window by (try lia; lra). cbn [bind].
  destruct (Z.ltb_spec len 0); [lia|].
  destruct (for_up_fill 0%R 0 len (fun _ => 1%R) (repeat 0%R (Z.to_nat len))) as (f0 & F0 & L0 & V0); [lia|zl; lia|].
  rewrite F0. cbn [bind]. rewrite zlen_repeat, Z2Nat.id in L0 by lia.
  match goal with |- context [cut_in_place ?W len f0] =>
    destruct (cut_in_place_ok W len f0) as (f1 & F1 & L1 & V1 & _); [lia|zl; lia|lia|] end.
  rewrite F1. cbn [bind].
  match goal with |- context [cut_in_place ?W len f1] =>
    destruct (cut_in_place_ok W len f1) as (f2 & F2 & L2 & V2 & _); [lia|zl; lia|lia|] end.
  rewrite F2. cbn [bind]. exists f2. assert (Lf : zlen f2 = len) by lia. splits; auto.
  assert (Od : Z.odd len = true).
  { unfold len, filter_length. rewrite Ek. cbn [fst]. rewrite Z.rem_mod by lia.
    destruct (Z.ltb_spec 200001 (if Z.sgn l0 * (Z.abs l0 mod Z.abs 2) =? 0 then l0 + 1 else l0)); [reflexivity|].
    change (Z.abs 2) with 2. rewrite Zmod_odd. destruct (Z.odd (Z.abs l0)) eqn:Eo.
    - destruct (Z.eqb_spec (Z.sgn l0 * 1) 0) as [E0|]; [|destruct l0; exact Eo || exact Eo].
      destruct l0; [discriminate Eo|discriminate E0|discriminate E0].
    - rewrite Z.mul_0_r. cbn [Z.eqb]. rewrite Z.add_1_r, Z.odd_succ, <- Z.negb_odd. destruct l0; cbn in *; rewrite ?Eo; auto. }
  split; [rewrite Lf; exact Od|]. rewrite Lf. intros i Hi. cbv zeta. rewrite V2, V1, V0 by lia.
  destruct (Z.leb_spec 0 i), (Z.ltb_spec i len); try lia. cbn [andb].
  rewrite !zn_ztab by lia. unfold kval. rewrite Rmult_1_l. 
  assert (Hh : (IZR (len - 1) / 2)%R = IZR (len / 2)).
  { pose proof (Z_div_mod_eq_full len 2) as D. rewrite Zmod_odd, Od in D.
    replace (len - 1) with (2 * (len / 2)) by lia. rewrite mult_IZR. lra. }
  rewrite Hh, minus_IZR. f_equal. f_equal. field. lra.
Qed.

(** Filter length for the default parameters (100 dB, 0.02). *)
Lemma default_length H : 1 <= H ->
  3 <= filter_length H 100 0.02 <= 200001 /\
  (H <= 200001 -> H <= filter_length H 100 0.02) /\
  (1000 <= H -> filter_length H 100 0.02 = 200001).
Proof.
  intros HH. assert (HR : (1 <= IZR H)%R) by (apply IZR_le; lia).
  unfold filter_length, kaiser_bandwidth, kaiser_parameters. cbn [fst].
  destruct (Rltb_spec 21 100); [|lra].
  set (l0 := 1 + Zceil _).
  assert (L : 250 * H <= l0).
  { unfold l0. destruct (Zceil_bounds ((100 - 7.95) / (2.285 * (0.02 * 2 * PI / IZR H)))) as [_ C].
    set (c := Zceil _) in *. pose proof PI_RGT_0 as P0. pose proof PI_4 as P4.
    assert (Q : (IZR (250 * H) <= IZR c)%R); [|apply le_IZR in Q; lia].
    eapply Rle_trans; [|exact C]. rewrite mult_IZR.
    assert (X : (2.285 * (0.02 * 2 * PI / IZR H) = (457 / 5000 * PI) * / IZR H)%R) by (unfold Rdiv; lra).
    rewrite X. replace (100 - 7.95)%R with (1841 / 20)%R by lra.
    replace (1841 / 20 / (457 / 5000 * PI * / IZR H))%R with ((1841 / 20 * IZR H) * / (457 / 5000 * PI))%R by (field; split; lra).
    apply Rmult_le_reg_r with (457 / 5000 * PI)%R; [lra|].
    replace (1841 / 20 * IZR H * / (457 / 5000 * PI) * (457 / 5000 * PI))%R with (1841 / 20 * IZR H)%R by (field; lra). nra. }
  set (l1 := if Z.rem l0 2 =? 0 then l0 + 1 else l0). assert (l0 <= l1) by (unfold l1; zcase; lia).
  destruct (Z.ltb_spec 200001 l1); lia.
Qed.

(** resample() in full: it uses the default parameters. *)
Definition resample_make (source target : Z) (data : list R) (n : Z) : res (list R) :=
  '(filter, p2p) <- resampler_filter source target 100 0.02 ;;
  g <- gcd_c (S (Z.to_nat (Z.max source target))) (Z.min source target) (Z.max source target) ;;
  resample 0%R Rplus Rmult source target filter (IZR target / IZR g / p2p)%R data n.

(** Zero-crossing distance of the default filter: reduced higher rate, raised by 1/0.99 when
    lowering the rate. *)
Definition default_p2p (source target : Z) : R :=
  let H := IZR (Z.max (reduced_source source target) (reduced_target source target)) in
  (if target <? source then H / (1 - 0.02 / 2) else H)%R.
Definition default_beta : R := (0.1102 * (100 - 8.7))%R.

Lemma default_filter source target :
  1 <= source <= INT_MAX -> 1 <= target <= INT_MAX ->
  let H := Z.max (reduced_source source target) (reduced_target source target) in
  exists f, resampler_filter source target 100 0.02 = OK (f, default_p2p source target) /\
    windowed_sinc f (default_p2p source target) default_beta /\
    zlen f <= 200001 /\ (H <= 200001 -> H <= zlen f) /\ (1000 <= H -> zlen f = 200001).
Proof.
  intros Hs Ht H. pose proof (b_pos source target Hs Ht).
  destruct (default_length H ltac:(unfold H; lia)) as (L1 & L2 & L3).
  destruct (filter_ok source target 100 0.02 Hs Ht ltac:(lra) ltac:(apply L1)) as (f & E & L & W).
  exists f. fold H in E, L, W. unfold default_p2p. fold H. split; [exact E|]. split; [|rewrite L; lia].
  replace default_beta with (snd (kaiser_bandwidth 100 0.02 (IZR H))); [exact W|].
  unfold kaiser_bandwidth, kaiser_parameters. cbn [snd]. destruct (Rltb_spec 50 100); [reflexivity|lra].
Qed.

Theorem default_resampler source target calls :
  1 <= source <= INT_MAX -> 1 <= target <= INT_MAX ->
  reduced_source source target <= 200001 -> reduced_target source target <= 200001 ->
  room source target calls ->
  exists k r0 r outs lat,
    windowed_sinc k (default_p2p source target) default_beta /\
    resampler_make source target 100 0.02 = OK r0 /\ r_latency r0 = lat /\ is_latency source target k lat /\
    resampler_run 0%R Rplus Rmult r0 calls = OK (r, outs) /\
    within 0%R source target calls outs /\
    (forall c, is_ceil (zlen (fed calls) * target) source c -> c <= zlen (written outs) <= c + 1) /\
    forall j, 0 <= j < zlen (written outs) ->
      interpolated 0%R Rplus Rmult source target k
        (IZR (reduced_target source target) / default_p2p source target)%R (fed calls) (j - lat) (Wn (written outs) j).
Proof.
  intros Hs Ht Rs Rt Hr. destruct (default_filter source target Hs Ht) as (f & E & W & L1 & L2 & L3).
  pose proof (a_pos source target Ht). pose proof (b_pos source target Hs Ht).
  destruct (resampler_stream 0%R Rplus Rmult source target f
    (IZR (reduced_target source target) / default_p2p source target)%R Hs Ht ltac:(lia) ltac:(lia) calls Hr)
    as (r0 & r & outs & lat & E0 & E1 & E2 & E3 & E4 & E5 & E6).
  exists f, r0, r, outs, lat. splits; auto.
  unfold resampler_make. rewrite E. cbn [bind]. destruct (reduced_gcd source target Hs Ht) as [-> _]. cbn [bind].
  rewrite <- E0. f_equal. f_equal. pose proof (g_pos source target Ht) as G. pose proof (a_eq source target Ht) as A.
  rewrite A at 1. rewrite mult_IZR. field. apply not_0_IZR. lia.
Qed.

Theorem default_resample source target data n :
  1 <= source <= INT_MAX -> 1 <= target <= INT_MAX ->
  reduced_source source target <= 200001 -> reduced_target source target <= 200001 ->
  0 <= n <= zlen data ->
  exists k out,
    windowed_sinc k (default_p2p source target) default_beta /\
    resample_make source target data n = OK out /\ is_ceil (n * target) source (zlen out) /\
    forall j, 0 <= j < zlen out ->
      interpolated 0%R Rplus Rmult source target k
        (IZR (reduced_target source target) / default_p2p source target)%R (firstn (Z.to_nat n) data) j (Wn out j).
Proof.
  intros Hs Ht Rs Rt Hn. destruct (default_filter source target Hs Ht) as (f & E & W & L1 & L2 & L3).
  pose proof (a_pos source target Ht). pose proof (b_pos source target Hs Ht).
  destruct (resample_ok 0%R Rplus Rmult source target f
    (IZR (reduced_target source target) / default_p2p source target)%R Hs Ht ltac:(lia) ltac:(lia) data n Hn)
    as (out & E1 & E2 & E3).
  exists f, out. splits; auto. unfold resample_make. rewrite E. cbn [bind].
  destruct (reduced_gcd source target Hs Ht) as [-> _]. cbn [bind]. rewrite <- E1. f_equal.
  pose proof (g_pos source target Ht) as G. pose proof (a_eq source target Ht) as A.
  f_equal. rewrite A at 1. rewrite mult_IZR. field. apply not_0_IZR. lia.
Qed.

(** Rates 300001 -> 1: process() throws. *)
Theorem default_resampler_throws :
  exists calls r0, room 300001 1 calls /\ resampler_make 300001 1 100 0.02 = OK r0 /\
    resampler_run 0%R Rplus Rmult r0 calls = Throw.
Proof.
  assert (Hs : 1 <= 300001 <= INT_MAX) by (unfold INT_MAX; lia).
  assert (Ht : 1 <= 1 <= INT_MAX) by (unfold INT_MAX; lia).
  destruct (default_filter 300001 1 Hs Ht) as (f & E & W & L1 & L2 & L3).
  assert (H3 : Z.max (reduced_source 300001 1) (reduced_target 300001 1) = 300001) by reflexivity.
  rewrite H3 in L3. specialize (L3 ltac:(lia)).
  unfold resampler_make. rewrite E. cbn [bind]. destruct (reduced_gcd 300001 1 Hs Ht) as [-> _]. cbn [bind].
  destruct (resampler_throws 0%R Rplus Rmult 300001 f (IZR 1 / IZR (Z.gcd 300001 1) / default_p2p 300001 1)%R) as (calls & r0 & R1 & R2 & R3);
    [lia|unfold INT_MAX; lia|].
  exists calls, r0. auto.
Qed.
