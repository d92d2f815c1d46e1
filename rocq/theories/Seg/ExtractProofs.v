(** Feature extraction, loop by loop. *)
From Coq Require Import List ZArith QArith Qreals Reals Lia Lra Bool.
From Verif.Base Require Import Imp Sums RealOps Loops.
From Verif.Maths Require Import IntModel IntSpec IntProofs.
From Verif.Rate Require Import Df2tSpec Df2tProofs DecimatorModel DecimatorSpec DecimatorProofs.
From Verif.Windows Require Import WindowModel WindowSpec WindowProofs.
From Verif.Fft Require Import Cplx FftModel FftSpec FftProofs FftrModel FftResults.
From Verif.Chroma Require Import CqModel CqSpec CqLoops CqProofs CqTime CqResults.
From Verif.Mfcc Require Import MfccModel MfccSpec MfccProofs.
From Verif.Seg Require Import SegModel ExtractModel ExtractSpec.
Import ListNotations.
Open Scope Z_scope.

(** *** The factor *)
Lemma pow_below x : 1 <= x -> exists p, power_of_two p /\ x <= p < 2 * x.
Proof.
  intros H. destruct (log2_bounds x H) as (L0 & L1 & L2). rewrite Z.pow_add_r in L2 by lia.
  destruct (Z.eq_dec x (2 ^ Z.log2 x)) as [E|N].
  - exists x. split; [exists (Z.log2 x); auto|lia].
  - exists (2 ^ (Z.log2 x + 1)). split; [exists (Z.log2 x + 1); split; auto; lia|]. rewrite Z.pow_add_r by lia. lia.
Qed.

Lemma next_below x p : 1 <= x -> is_next_power x p -> x <= p < 2 * x.
Proof.
  intros H (_ & A & B). destruct (pow_below x H) as (q & Q1 & Q2). specialize (B q Q1 ltac:(lia)). lia.
Qed.

Lemma factor_for_ok internal rate : 1 <= internal -> 0 <= rate ->
  exists f, factor_for internal rate = OK f /\ is_factor internal rate f.
Proof.
  intros Hi Hr. unfold factor_for. rewrite Z.quot_div_nonneg by lia.
  replace (if rate / internal <? 1 then 1 else rate / internal) with (Z.max 1 (rate / internal)) by (destruct (Z.ltb_spec (rate / internal) 1); lia).
  set (x := Z.max 1 (rate / internal)). assert (Hx : 1 <= x) by lia.
  destruct (pow_below x Hx) as (q & Q1 & Q2).
  match goal with |- context [while _ ?C ?B x] =>
    destruct (while_inv (fun f => x <= f <= q /\ forall p, power_of_two p -> x <= p -> f <= p) (fun f => Z.to_nat (q - f)) C B)
      with (fuel := Z.to_nat x) (s := x) as (f & E & (F1 & F2) & F3) end.
  - intros f (F1 & F2) C. assert (f <> q).
    { intros ->. apply isPow2_spec in Q1. unfold isPowerOfTwo in Q1. destruct (q <? 1); [discriminate|].
      destruct (Z.land q (q - 1) =? 0); [discriminate C|discriminate Q1]. }
    exists (f + 1). split; [reflexivity|]. split; [|lia]. split; [lia|]. intros p P1 P2. specialize (F2 p P1 P2).
    assert (f <> p); [|lia]. intros ->. apply isPow2_spec in P1. unfold isPowerOfTwo in P1. destruct (p <? 1); [discriminate|].
    destruct (Z.land p (p - 1) =? 0); [discriminate C|discriminate P1].
  - split; [lia|]. auto.
  - lia.
  - rewrite E. cbn [bind]. exists (Z.min 8 f). split; [f_equal; destruct (Z.ltb_spec 8 f); lia|]. exists f. split; auto.
    split; [|split; [lia|auto]]. apply isPow2_spec. unfold isPowerOfTwo. destruct (Z.ltb_spec f 1); [lia|].
    apply negb_false_iff in F3. rewrite F3. reflexivity.
Qed.

Lemma next_power_unique x p q : is_next_power x p -> is_next_power x q -> p = q.
Proof. intros (A & B & C) (A' & B' & C'). specialize (C q A' B'). specialize (C' p A B). lia. Qed.
Lemma is_factor_unique internal rate f g : is_factor internal rate f -> is_factor internal rate g -> f = g.
Proof. intros (p & P & ->) (q & Q & ->). now rewrite (next_power_unique _ _ _ P Q). Qed.

Lemma is_factor_values internal rate f : is_factor internal rate f -> f = 1 \/ f = 2 \/ f = 4 \/ f = 8.
Proof.
  intros (p & ((k & Hk & ->) & _ & _) & ->).
  destruct (Z.le_gt_cases 3 k) as [H|H].
  - pose proof (pow2_mono 3 k ltac:(lia)). lia.
  - assert (k = 0 \/ k = 1 \/ k = 2) as [->|[->| ->]] by lia; cbn; auto.
Qed.

(** The reduced rate is near the one asked for, as long as a factor of 8 suffices. *)
Lemma is_factor_near internal rate f : 1 <= internal -> internal <= rate < 9 * internal -> is_factor internal rate f ->
  internal < 2 * (rate / f) + 2 /\ rate / f < 2 * internal.
Proof.
  intros Hi Hr F. destruct F as (p & P & ->).
  assert (Hq : 1 <= rate / internal <= 8).
  { split; [apply Z.div_le_lower_bound; lia|]. assert (rate / internal < 9); [apply Z.div_lt_upper_bound; lia|lia]. }
  set (q := rate / internal) in *. replace (Z.max 1 q) with q in P by lia.
  pose proof (next_below q p ltac:(lia) P) as B. destruct P as (_ & _ & P3).
  assert (p <= 8) by (apply P3; [exists 3; split; [lia|reflexivity]|lia]).
  replace (Z.min 8 p) with p by lia.
  assert (A : internal * q <= rate < internal * q + internal).
  { pose proof (Z.div_mod rate internal ltac:(lia)). pose proof (Z.mod_pos_bound rate internal ltac:(lia)). unfold q. lia. }
  pose proof (Z.div_mod rate p ltac:(lia)) as M. pose proof (Z.mod_pos_bound rate p ltac:(lia)). nia.
Qed.

(** *** Decimation *)
Notation D := (decimator R).
Definition filter_past (f : Z) (past : list R) : list R :=
  fst (resp_run 0%R Rplus Rminus Rmult Q2R f (repeat 0%R 7) past).

(** A decimator made for blocks of [w] samples that has processed [past]. *)
Definition heard (f w : Z) (past : list R) (d : D) : Prop := dec_ok Q2R d f w (filter_past f past).

Lemma pairs_7 f : let '(b, a) := DecimatorModel.coefficients f in length (pairs Q2R b a) = 7%nat /\ pairs Q2R b a <> [].
Proof. unfold DecimatorModel.coefficients. zcase; split; try reflexivity; discriminate. Qed.

Lemma new_heard junk f w : 2 <= f -> 0 <= w -> exists d, decimator_new 0%R Q2R junk w f = OK d /\ heard f w [] d.
Proof.
  intros Hf Hw. destruct (new_ok 0%R Q2R junk w f ltac:(lia) Hw) as (d & E & H). exists d. split; auto.
  unfold heard, filter_past, resp_run. destruct (DecimatorModel.coefficients f). exact H.
Qed.

(** All of the outputs of one call. *)
Definition block_out (f w : Z) (past samples : list R) (mem : Z -> R) (p : list R) : Prop :=
  exists ys, (let '(b, a) := DecimatorModel.coefficients f in
    iir_response 0%R Rplus Rminus Rmult (lead Q2R b) (pairs Q2R b a) (past ++ firstn (Z.to_nat w) samples) ys) /\
    zlen p = zlen samples / f /\
    forall i, 0 <= i < zlen p -> zn 0%R p i = if i <? w / f then zn 0%R ys (zlen past + f * i) else mem i.

Lemma decimated_ok f w past d mem samples : 2 <= f -> 0 <= w <= zlen samples -> heard f w past d ->
  exists d' p, decimated (Some d) mem samples = OK (Some d', p) /\ heard f w (past ++ firstn (Z.to_nat w) samples) d' /\
    block_out f w past samples (mem 0) p.
Proof.
  intros Hf Hw H. unfold decimated.
  assert (Df : d_factor d = f). { red in H. unfold dec_ok in H. destruct (DecimatorModel.coefficients f). tauto. }
  rewrite Df, Z.quot_div_nonneg by lia. set (pc := zlen samples / f).
  assert (Hpc : 0 <= pc) by (apply Z.div_pos; lia).
  assert (Hwf : 0 <= w / f <= pc) by (split; [apply Z.div_pos; lia|apply Z.div_le_mono; lia]).
  unfold decimator_block.
  destruct (process_spec 0%R Rplus Rminus Rmult Q2R 0%R (fun x : R => x) (fun x : R => x) d f w (filter_past f past)
     (samples ++ rjunk mem 0 pc) 0 (zlen samples)) as (d' & m' & E & R); auto.
  { split; [lia|]. unfold rjunk. zl. lia. }
  { split; [lia|]. unfold rjunk. zl. lia. }
  rewrite E. cbn [bind]. do 2 eexists. split; [reflexivity|].
  assert (SL : slice (samples ++ rjunk mem 0 pc) 0 w = firstn (Z.to_nat w) samples).
  { unfold slice. cbn [Z.to_nat skipn]. rewrite firstn_app. replace (Z.to_nat w - length samples)%nat with 0%nat by (unfold zlen in Hw; lia).
    cbn [firstn]. now rewrite app_nil_r. }
  rewrite SL, map_id in R.
  set (blk := firstn (Z.to_nat w) samples) in *. assert (Lb : zlen blk = w) by (unfold blk; zl; lia).
  pose proof (pairs_7 f) as P7. unfold heard, filter_past, block_out in *. fold blk. unfold resp_run in *.
  destruct (DecimatorModel.coefficients f) as [b a] eqn:EC. destruct P7 as [P7 P0].
  pose proof (grun_response 0%R Rplus Rminus Rmult (lead Q2R b) (pairs Q2R b a) (past ++ blk) P0) as GR. rewrite P7 in GR.
  rewrite grun_app in GR |- *. pose proof (grun_len 0%R Rplus Rminus Rmult (lead Q2R b) (pairs Q2R b a) (repeat 0%R 7) past) as G1.
  destruct (grun 0%R Rplus Rminus Rmult (lead Q2R b) (pairs Q2R b a) (repeat 0%R 7) past) as [o1 ys1].
  cbn [fst snd] in *. pose proof (grun_len 0%R Rplus Rminus Rmult (lead Q2R b) (pairs Q2R b a) o1 blk) as G2.
  destruct (grun 0%R Rplus Rminus Rmult (lead Q2R b) (pairs Q2R b a) o1 blk) as [o2 ys2]. cbn [fst snd] in *.
  destruct R as (R1 & R2 & R3). destruct GR as (GR & _). split; [exact R1|].
  exists (ys1 ++ ys2). split; [exact GR|].
  assert (Lm : zlen m' = zlen samples + pc) by (rewrite R2; unfold rjunk; zl; lia).
  split; [zl; lia|]. zl. intros i Hi. rewrite zn_skipn by lia. fold (zlen samples).
  rewrite R3 by (rewrite <- R2; lia). zl. destruct (Z.ltb_spec i (w / f)).
  - zcase. replace (zlen samples + i - zlen samples) with i by lia. rewrite zn_ztab by lia. rewrite zn_app.
    assert (0 <= f * i) by nia. destruct (Z.ltb_spec (zlen past + f * i) (zlen ys1)); [lia|]. f_equal. lia.
  - zcase. rewrite zn_app. zcase. unfold rjunk. rewrite zn_ztab by lia. f_equal. lia.
Qed.

(** *** Frames *)
Lemma over_frames_ok {S} (P : Z -> S -> Prop) (step : Z -> S -> res S) pcount n s : 2 <= n -> 0 <= pcount -> P 0 s ->
  (forall k s, 0 <= k -> P k s -> exists s', step (k * (n / 2)) s = OK s' /\ P (k + 1) s') ->
  exists count s', over_frames step pcount n s = OK (count, s') /\ frame_count n pcount count /\ P count s'.
Proof.
  intros Hn Hp P0 HS. unfold over_frames.
  assert (Hh : 1 <= n / 2) by (apply Z.div_le_lower_bound; lia). rewrite Z.quot_div_nonneg by lia. set (h := n / 2) in *.
  match goal with |- context [while ?F ?C ?B ?S0] =>
    destruct (while_inv (fun st => let '(origin, k, s, stop) := st in origin = k * h /\ 0 <= k /\ P k s /\
        (forall j, 1 <= j < k -> j * h + n < pcount) /\ (stop = true -> 1 <= k /\ pcount <= k * h + n))
      (fun st => let '(origin, k, s, stop) := st in if stop : bool then 0%nat else (1 + Z.to_nat (pcount + 1 - origin))%nat) C B)
      with (fuel := F) (s := S0) as ([[[origin k] s'] stop] & E & (I1 & I2 & I3 & I4 & I5) & C1) end.
  - intros [[[origin k] st] stop] (I1 & I2 & I3 & I4 & I5) C. apply andb_true_iff in C as [C1 C2].
    apply Z.leb_le in C1. apply negb_true_iff in C2. subst stop.
    destruct (Z.ltb_spec 0 origin) as [O|O]; [destruct (Z.leb_spec pcount (origin + n)) as [O'|O']|]; cbn [andb].
    + eexists; split; [reflexivity|]. split; [|lia]. splits; auto; lia || (intros _; nia).
    + destruct (HS k st I2 I3) as (s1 & E1 & Q1). rewrite I1. fold h. rewrite E1. cbn [bind]. eexists; split; [reflexivity|].
      split; [|rewrite <- I1; lia]. splits; auto; try lia; try discriminate. intros j Hj. destruct (Z.eq_dec j k) as [->|]; [lia|apply I4; lia].
    + destruct (HS k st I2 I3) as (s1 & E1 & Q1). rewrite I1. fold h. rewrite E1. cbn [bind]. eexists; split; [reflexivity|].
      split; [|rewrite <- I1; lia]. splits; auto; try lia; try discriminate. intros j Hj. nia.
  - splits; auto; try lia; try discriminate.
  - lia.
  - rewrite E. cbn [bind]. exists k, s'. split; [reflexivity|]. split; auto.
    destruct stop; [destruct (I5 eq_refl); split; auto|].
    rewrite andb_true_r in C1. apply Z.leb_gt in C1. split; [nia|]. split; auto. fold h. lia.
Qed.

Lemma frame_count_unique n p c c' : 2 <= n -> frame_count n p c -> frame_count n p c' -> c = c'.
Proof.
  intros Hn (A & B & C) (A' & B' & C'). destruct (Z.lt_total c c') as [L|[|L]]; auto; exfalso.
  - specialize (B' c ltac:(lia)). lia.
  - specialize (B c' ltac:(lia)). lia.
Qed.

Lemma fill_frame_ok p origin n fr : 0 <= origin -> 0 <= n -> zlen fr = n ->
  fill_frame p origin n fr = OK (ztab n (fun t => zn 0%R p (origin + t))).
Proof.
  intros Ho Hn L. unfold fill_frame.
  rewrite (for_up_ext _ _ _ (fun i fr => v <- (if origin + i <? zlen p then aget p (origin + i) else OK 0%R) ;; aset fr i v)).
  2: { intros i s Hi. destruct (origin + i <? zlen p); reflexivity. }
  rewrite (for_up_set n _ (fun t => zn 0%R p (origin + t))).
  - rewrite skipn_zlen, app_nil_r by lia. reflexivity.
  - lia.
  - intros i Hi. destruct (Z.ltb_spec (origin + i) (zlen p)); [apply aget_OK; lia|]. rewrite zn_out by lia. reflexivity.
Qed.

Lemma averaged_ok nc count v : 0 <= nc -> zlen v = nc -> averaged nc count v = OK (ztab nc (fun i => zn 0%R v i / IZR count)%R).
Proof.
  intros Hn L. unfold averaged.
  match goal with |- context [for_up 0 nc ?B v] =>
  destruct (for_up_inv (fun i s => zlen s = nc /\ forall j, 0 <= j < nc -> zn 0%R s j = if j <? i then (zn 0 v j / IZR count)%R else zn 0%R v j) 0 nc B v)
    as (s & E & Ls & V) end.
  - lia.
  - split; auto. intros j Hj. zcase. reflexivity.
  - intros i s Hi (Ls & V). rewrite (aget_OK 0%R) by lia. cbn [bind]. rewrite aset_OK by lia. eexists; split; [reflexivity|].
    split; [zl; lia|]. intros j Hj. rewrite zn_upd by lia. rewrite !V by lia. zcase; subst; auto; lia.
  - rewrite E. f_equal. apply (zn_ext 0%R); [rewrite zlen_ztab; lia|]. intros j Hj. rewrite zn_ztab, V by lia. zcase. reflexivity.
Qed.

(** Sums of values computed from each frame. *)
Lemma add_ok nc (g : Z -> R) (get : Z -> res R) sums : 0 <= nc -> zlen sums = nc -> (forall i, 0 <= i < nc -> get i = OK (g i)) ->
  for_up 0 nc (fun i sums => s <- aget sums i ;; x <- get i ;; aset sums i (s + x)%R) sums = OK (ztab nc (fun i => zn 0%R sums i + g i)%R).
Proof.
  intros Hn L G.
  match goal with |- for_up 0 nc ?B sums = _ =>
  destruct (for_up_inv (fun i s => zlen s = nc /\ forall j, 0 <= j < nc -> zn 0%R s j = if j <? i then (zn 0 sums j + g j)%R else zn 0%R sums j) 0 nc B sums)
    as (s & E & Ls & V) end.
  - lia.
  - split; auto. intros j Hj. zcase. reflexivity.
  - intros i s Hi (Ls & V). rewrite (aget_OK 0%R) by lia. cbn [bind]. rewrite G by lia. cbn [bind]. rewrite aset_OK by lia. eexists; split; [reflexivity|].
    split; [zl; lia|]. intros j Hj. rewrite zn_upd by lia. rewrite !V by lia. zcase; subst; auto; lia.
  - rewrite E. f_equal. apply (zn_ext 0%R); [rewrite zlen_ztab; lia|]. intros j Hj. rewrite zn_ztab, V by lia. zcase. reflexivity.
Qed.

Notation level c n := (constq_level (c_fs c) (c_min c) (c_bpo c) (c_thresh c) n).

Definition constq_state (c : cqconfig) (q : cq) (p : list R) (k : Z) (st : fftreal * list R * list R * list R * list R * list R * list R) : Prop :=
  let n := q_len q in
  let '(t, fr, re, im, cre, cim, sums) := st in
  fftreal_uses n t /\ zlen fr = n /\ zlen re = n /\ zlen im = n /\ zlen cre = q_uk q /\ zlen cim = q_uk q /\
  sums = ztab (q_uk q) (fun i => rsum k (fun j => level c n (frame_at n p j) i)).

Lemma cq_bin_ext fs f b th n X Y k : (forall i, 1 <= i < n -> X i = Y i) -> cq_bin fs f b th n X k = cq_bin fs f b th n Y k.
Proof. intros H. unfold cq_bin. apply csum_ext. intros i Hi. rewrite H by lia. reflexivity. Qed.

Lemma constq_frame_ok c q p k st (n := q_len q) : usable c -> cq_uses c true q -> 2 <= n -> 0 <= k -> constq_state c q p k st ->
  exists st', constq_frame q (ztab n (hamming n)) p (q_uk q) n (k * (n / 2)) st = OK st' /\ constq_state c q p (k + 1) st'.
Proof.
  intros U Q Hn Hk I. destruct st as [[[[[[t fr] re] im] cr] ci] sums]. unfold constq_state in I. fold n in I.
  destruct I as (I1 & I2 & I3 & I4 & I5 & I6 & I7). subst sums.
  destruct (cq_uses_inv c true q U Q) as [M _]. destruct (made_len c q U M) as (Hl & Hh & _). fold n in Hl, Hh.
  pose proof (md_uk0 c q M) as Hu.
  destruct Hh as [Hh|[Hh1 Hh2]]; [lia|]. set (h := n / 2) in *.
  assert (Hkh : 0 <= k * h) by nia.
  unfold constq_frame. rewrite (fill_frame_ok p (k * h) n fr) by lia. cbn [bind].
  rewrite Z.quot_div_nonneg by lia. fold h. rewrite (swap_halves_ok h) by (zl; lia). cbn [bind]. rewrite <- Hh2.
  set (b1 := ztab n (fun t0 => zn 0%R (ztab n (fun t1 => zn 0%R p (k * h + t1))) ((t0 + h) mod n))).
  destruct (cut_in_place_ok (ztab n (hamming n)) n b1) as (b2 & E2 & Lb2 & Pb & _); try (unfold b1; zl; lia).
  rewrite E2. cbn [bind].
  assert (Vb : forall j, 0 <= j < n -> zn 0%R b2 j = (frame_at n p k ((j + h) mod n) * hamming n j)%R).
  { intros j Hj. rewrite (Pb j Hj). unfold b1, frame_at. fold h. rewrite zn_ztab by lia.
    pose proof (Z.mod_pos_bound (j + h) n ltac:(lia)) as B. rewrite !zn_ztab by lia. reflexivity. }
  assert (N31 : 2 <= n < 2 ^ 31). { split; [lia|]. change (2 ^ 31) with (2 * 2 ^ 30). lia. }
  assert (Ev : n mod 2 = 0) by (rewrite Hh2, Z.mul_comm; apply Z.mod_mul; lia).
  destruct (fftreal_forward_dft n t b2 re im) as (t' & re' & im' & E3 & Ut & (R1 & R2 & _) & (S1 & S2 & _)); auto; try (unfold b1 in *; zl; lia).
  rewrite E3. cbn [bind].
  destruct (cq_product c q re' im' cr ci U Q) as (cr' & ci' & E4 & (L3 & P3 & _) & (L4 & P4 & _)); try (fold n; lia); try lia.
  fold n in P3, P4. rewrite E4. cbn [bind].
  assert (G : for_up 0 (q_uk q) (fun i sums => s <- aget sums i ;; x <- aget cr' i ;; y <- aget ci' i ;; aset sums i (s + sqrt (x * x + y * y))%R)
      (ztab (q_uk q) (fun i => rsum k (fun j => level c n (frame_at n p j) i)))
    = OK (ztab (q_uk q) (fun i => rsum (k + 1) (fun j => level c n (frame_at n p j) i)))).
  { etransitivity.
    { apply (for_up_ext _ _ _ (fun i sums => s <- aget sums i ;; x <- (x <- aget cr' i ;; y <- aget ci' i ;; OK (sqrt (x * x + y * y))) ;; aset sums i (s + x)%R)).
      intros i s Hi. rewrite (aget_OK 0%R cr'), (aget_OK 0%R ci') by lia. reflexivity. }
    rewrite (add_ok (q_uk q) (level c n (frame_at n p k))).
    - f_equal. apply ztab_ext. intros i Hi. rewrite rsum_S, zn_ztab by lia. reflexivity.
    - lia.
    - zl; lia.
    - intros i Hi. rewrite (aget_OK 0%R cr'), (aget_OK 0%R ci') by lia. cbn [bind]. f_equal. rewrite P3, P4 by lia.
      unfold constq_level. fold h.
      match goal with |- _ = cabs ?B => replace B with (bin_of c n (frame re' im') i) end; [reflexivity|].
      apply cq_bin_ext. intros j Hj. unfold frame. rewrite R2, S2 by lia. unfold CqSpec.spectrum.
      f_equal; unfold dft_re, dft_im; apply rsum_ext; intros u Hu'; rewrite Vb by lia; reflexivity. }
  rewrite G. cbn [bind]. eexists; split; [reflexivity|]. unfold constq_state. fold n. splits; auto; try lia; try (unfold b1 in *; zl; lia).
Qed.

Definition mfcc_state (c : mfccconfig) (p : list R) (k : Z) (st : mfcc * list R * list R * list R) : Prop :=
  let n := k_fftsize c in
  let '(m, fr, out, sums) := st in
  mfcc_uses c m /\ zlen fr = n /\ zlen out = count c /\
  sums = ztab (count c) (fun i => rsum k (fun j => cepstrum (k_logpower c) (k_fs c) n (frame_magnitude n (frame_at n p j)) (if k_want_c0 c then i else i + 1))).

Lemma mfcc_frame_ok c p jin k st (n := k_fftsize c) : config_ok c -> k_window c = Hamming -> k_logpower c = 1%R -> zlen jin = n -> 0 <= k ->
  mfcc_state c p k st ->
  exists st', mfcc_frame p jin (count c) n (k * (n / 2)) st = OK st' /\ mfcc_state c p (k + 1) st'.
Proof.
  intros C W L1 Lj Hk I. destruct st as [[[m fr] out] sums]. unfold mfcc_state in I. fold n in I. destruct I as (I1 & I2 & I3 & I4). subst sums.
  pose proof C as (C1 & C2 & C3). fold n in C1, C2. assert (Hc : 0 <= count c) by (unfold count; destruct (k_want_c0 c); lia).
  assert (Hh : 1 <= n / 2 <= n) by (split; [apply Z.div_le_lower_bound; lia|apply Z.div_le_upper_bound; lia]).
  set (h := n / 2) in *. assert (Hkh : 0 <= k * h) by nia.
  unfold mfcc_frame. rewrite (fill_frame_ok p (k * h) n fr) by lia. cbn [bind].
  set (x := ztab n (fun t => zn 0%R p (k * h + t))).
  assert (Lx : zlen x = n) by (unfold x; zl; lia).
  destruct (MfccProofs.mfcc_frame c m jin x out (ztab n (hamming n))) as (m' & out' & E & U & (Lo & Vo)); auto; try (fold n; lia); try lia.
  { rewrite W. apply hamming_ok. fold n. lia. }
  { now left. }
  rewrite E. cbn [bind]. fold n in Vo.
  rewrite (add_ok (count c) (fun i => cepstrum (k_logpower c) (k_fs c) n (frame_magnitude n (frame_at n p k)) (if k_want_c0 c then i else i + 1))).
  - cbn [bind]. eexists; split; [reflexivity|]. unfold mfcc_state. fold n. splits; auto; try lia.
    apply ztab_ext. intros i Hi. rewrite rsum_S, zn_ztab by lia. reflexivity.
  - lia.
  - zl; lia.
  - intros i Hi. rewrite (aget_OK 0%R) by lia. f_equal. rewrite Vo by lia. destruct (Z.ltb_spec i (count c)); [|lia].
    apply cepstrum_ext. intros j Hj. unfold MfccProofs.spectrum, frame_magnitude, magn.
    assert (X : forall u, 0 <= u < n -> (zn 0 x u * zn 0 (ztab n (hamming n)) u = frame_at n p k u * hamming n u)%R).
    { intros u Hu. unfold x, frame_at. fold h. rewrite !zn_ztab by lia. reflexivity. }
    unfold dft_re, dft_im. f_equal. f_equal; f_equal; apply rsum_ext; intros u Hu; now rewrite X.
Qed.
