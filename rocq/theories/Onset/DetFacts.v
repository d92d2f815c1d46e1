(** What follows from the values of the detection functions. *)
From Coq Require Import List ZArith Reals Lia Lra Bool.
From Verif.Base Require Import Imp Sums RealOps Loops Tables.
From Verif.Maths Require Import RealModel RealSpec RealProofs.
From Verif.Fft Require Import Cplx FftSpec.
From Verif.Vocoder Require Import PvModel PvSpec PvProofs.
From Verif.Onset Require Import DetModel DetSpec DetProofs DetResults.
Import ListNotations.
Open Scope Z_scope.

(** *** Whitening *)
Section White.
Variables (relax floor : R) (m : nat -> R).
Hypotheses (Hr : (0 <= relax)%R) (Hf : (0 < floor)%R).

Lemma envelope_above t : (floor <= envelope relax floor m t /\ m t <= envelope relax floor m t)%R.
Proof.
  destruct t; cbn [envelope]; split; try apply Rmax_l; (eapply Rle_trans; [|apply Rmax_r]; apply Rmax_l).
Qed.

(** Never above the loudest magnitude so far, or the floor. *)
Lemma envelope_below b t : (relax <= 1)%R -> (floor <= b)%R -> (forall s, (s <= t)%nat -> (0 <= m s <= b)%R) ->
  (envelope relax floor m t <= b)%R.
Proof.
  intros H1 Hb. induction t as [|t IH]; intros Hm; cbn [envelope]; repeat apply Rmax_lub; auto; try apply Hm; try lia.
  - specialize (Hm 0%nat ltac:(lia)). nra.
  - specialize (IH ltac:(intros; apply Hm; lia)). specialize (Hm (S t) ltac:(lia)). nra.
Qed.

(** Silence: the level falls back geometrically. *)
Lemma envelope_decay t d : (relax <= 1)%R -> (forall s, (t < s <= t + d)%nat -> m s = 0%R) -> (0 <= m t)%R ->
  envelope relax floor m (t + d) = Rmax floor (relax ^ d * envelope relax floor m t).
Proof.
  intros H1 Hm M0. induction d as [|d IH].
  - rewrite Nat.add_0_r. cbn [pow]. rewrite Rmult_1_l. symmetry. apply Rmax_right. apply envelope_above.
  - rewrite Nat.add_succ_r. cbn [envelope]. rewrite IH by (intros; apply Hm; lia). rewrite (Hm (S (t + d))) by lia.
    pose proof (envelope_above t) as (A & B). set (e := envelope relax floor m t) in *.
    assert (P : (0 <= relax ^ d * e)%R) by (apply Rmult_le_pos; [now apply pow_le|lra]).
    assert (Pm : (floor <= Rmax floor (relax ^ d * e))%R) by apply Rmax_l.
    rewrite Rmult_0_r, Rplus_0_r. rewrite (Rmax_right 0) by (apply Rmult_le_pos; lra).
    cbn [pow]. rewrite <- RmaxRmult by auto. rewrite Rmult_assoc.
    rewrite Rmax_assoc. f_equal. apply Rmax_left. nra.
Qed.
End White.

Lemma level_unit c M t k : c_whiten c = true -> c_floor c <> 0%R -> (0 <= M t k)%R -> (0 <= level c M t k <= 1)%R.
Proof.
  intros W F H. unfold level. rewrite W.
  assert (Fp : (0 < floor_of c)%R) by (unfold floor_of; destruct (Rltb_spec (c_floor c) 0); lra).
  destruct (envelope_above (relax_of c) (floor_of c) (fun s => M s k) t) as (A & B).
  set (e := envelope _ _ _ t) in *. assert (0 < e)%R by lra. split.
  - apply Rmult_le_pos; auto. left. now apply Rinv_0_lt_compat.
  - apply (Rmult_le_reg_r e); auto. unfold Rdiv. rewrite Rmult_assoc, Rinv_l, Rmult_1_l, Rmult_1_r by lra. exact B.
Qed.

(** *** Angles *)
Lemma off_turn_unique x d d' : off_turn x d -> off_turn x d' -> d = d'.
Proof.
  assert (G : forall x d, off_turn x d -> d = Rabs (princarg x)).
  { clear. intros x d [A [q E]]. destruct (princarg_spec x) as [[j J] B]. pose proof PI_RGT_0 as P.
    set (p := princarg x) in *. clearbody p.
    assert (X : (x - IZR q * (2 * PI) = p - IZR (j + q) * (2 * PI))%R) by (rewrite plus_IZR; lra).
    rewrite X in E. clear X. set (r := j + q) in *. clearbody r.
    assert (H : (Rabs (p - IZR r * (2 * PI)) <= PI)%R) by lra.
    pose proof (Rle_abs (p - IZR r * (2 * PI))) as H1. pose proof (Rle_abs (- (p - IZR r * (2 * PI)))) as H2. rewrite Rabs_Ropp in H2.
    assert (-1 <= r <= 1).
    { split; [apply le_IZR|apply le_IZR]; simpl; nra. }
    assert (r = -1 \/ r = 0 \/ r = 1) as [-> | [-> | ->]] by lia; rewrite E.
    - assert (p = (- PI)%R) by lra. lra.
    - f_equal. lra.
    - assert (p = PI) by lra. subst p. rewrite <- Rabs_Ropp. f_equal. lra. }
  intros A B. rewrite (G x d), (G x d'); auto.
Qed.

Lemma off_turn_zero x : off_turn x 0 <-> same_angle x 0.
Proof.
  split.
  - intros [_ [q E]]. exists q. symmetry in E. destruct (Req_dec (x - IZR q * (2 * PI)) 0) as [H|H]; [lra|].
    apply Rabs_no_R0 in H. lra.
  - intros [q E]. pose proof PI_RGT_0. split; [lra|]. exists q. rewrite E.
    replace (0 + IZR q * (2 * PI) - IZR q * (2 * PI))%R with 0%R by ring. now rewrite Rabs_R0.
Qed.

Lemma off_turn_nonneg x d : off_turn x d -> (0 <= d <= PI)%R.
Proof. intros [A [q ->]]. split; [apply Rabs_pos|auto]. Qed.

Lemma detects_unique c M TH t v v' : detects c M TH t v -> detects c M TH t v' -> v = v'.
Proof.
  unfold detects. destruct (c_type c) as [|p|p]; try congruence.
  do 3 (try destruct p as [p|p|]); try congruence.
  intros (d & D & ->) (d' & D' & ->). apply rsum_ext. intros k Hk. eapply off_turn_unique; eauto.
Qed.

Lemma rsum_zero_all h f : (forall k, 0 <= k < h -> (0 <= f k)%R) -> rsum h f = 0%R -> forall k, 0 <= k < h -> f k = 0%R.
Proof. intros N E k Hk. pose proof (rsum_term h f k N Hk). specialize (N k Hk). lra. Qed.

Lemma apart_zero m a m' a' : apart m a m' a' = 0%R <-> (m * cos a = m' * cos a' /\ m * sin a = m' * sin a')%R.
Proof.
  unfold apart. set (x := (m * cos a - m' * cos a')%R). set (y := (m * sin a - m' * sin a')%R). split.
  - intros H. apply sqrt_eq_0 in H; [|nra]. assert (x = 0 /\ y = 0)%R as [A B] by (split; nra). unfold x, y in *. lra.
  - intros [A B]. replace x with 0%R by (unfold x; lra). replace y with 0%R by (unfold y; lra).
    replace (0 ^ 2 + 0 ^ 2)%R with 0%R by ring. apply sqrt_0.
Qed.

Lemma apart_mag m a m' a' : (0 <= m)%R -> (0 <= m')%R -> (Rabs (m - m') <= apart m a m' a' <= m + m')%R.
Proof.
  intros P P'. unfold apart.
  assert (E : ((m * cos a - m' * cos a') ^ 2 + (m * sin a - m' * sin a') ^ 2 = (m - m') ^ 2 + 2 * m * m' * (1 - cos (a - a')))%R).
  { rewrite cos_minus. pose proof (sin2_cos2 a) as A. pose proof (sin2_cos2 a') as B. unfold Rsqr in *.
    set (c := cos a) in *. set (s := sin a) in *. set (c' := cos a') in *. set (s' := sin a') in *.
    transitivity (m * m * (s * s + c * c) + m' * m' * (s' * s' + c' * c') - 2 * m * m' * (c * c' + s * s'))%R; [ring|].
    rewrite A, B. ring. }
  rewrite E. pose proof (COS_bound (a - a')) as [C1 C2]. pose proof (Rmult_le_pos m m' P P') as PP.
  set (q := cos (a - a')) in *. clearbody q. split.
  - rewrite <- sqrt_Rsqr_abs. apply sqrt_le_1_alt. unfold Rsqr. nra.
  - rewrite <- (sqrt_Rsqr (m + m')) by lra. apply sqrt_le_1_alt. unfold Rsqr. nra.
Qed.

Lemma h_pos c : config_ok c -> 0 <= c_frame c / 2 + 1.
Proof. intros ((A & _) & _). pose proof (Z.div_pos (c_frame c) 2). lia. Qed.

(** Ranges. *)
Lemma detects_phase_range c M TH t v : config_ok c -> c_type c = 3 -> detects c M TH t v ->
  (0 <= v <= IZR (c_frame c / 2 + 1) * PI)%R.
Proof.
  intros C T. unfold detects. rewrite T. intros (d & D & ->). pose proof (h_pos c C). split.
  - apply rsum_nonneg. intros k Hk. eapply off_turn_nonneg; eauto.
  - rewrite <- rsum_const by auto. apply rsum_le. intros k Hk. eapply off_turn_nonneg; eauto.
Qed.

Lemma bins_with_range h b : 0 <= h -> (0 <= bins_with h b <= IZR h)%R /\ exists q : Z, bins_with h b = IZR q.
Proof.
  intros H. unfold bins_with. split; [split|].
  - apply rsum_nonneg. intros k _. destruct (b k); lra.
  - rewrite <- (Rmult_1_r (IZR h)), <- rsum_const by auto. apply rsum_le. intros k _. destruct (b k); lra.
  - revert h H. apply (natlike_ind (fun h => exists q : Z, rsum h _ = IZR q)).
    + exists 0. apply rsum_0. lia.
    + intros x Hx (q & E). unfold Z.succ. rewrite rsum_S, E by auto. destruct (b x); [exists (q + 1)|exists q]; rewrite ?plus_IZR; lra.
Qed.

Lemma detects_nonneg c M TH t v : config_ok c -> (forall s k, (s <= t)%nat -> 0 <= k <= c_frame c / 2 -> (0 <= M s k)%R) ->
  detects c M TH t v -> (0 <= v)%R.
Proof.
  intros C N. pose proof (h_pos c C) as H. unfold detects. destruct (c_type c) as [|p|p] eqn:T; try (intros ->; lra).
  do 3 (try destruct p as [p|p|]); try (intros ->; lra).
  - intros ->. now apply bins_with_range.
  - intros (d & D & ->). apply rsum_nonneg. intros k Hk. eapply off_turn_nonneg; eauto.
  - intros ->. apply rsum_nonneg. intros k Hk. apply sqrt_pos.
  - intros ->. apply rsum_nonneg. intros k Hk. apply sqrt_pos.
  - intros ->. apply rsum_nonneg. intros k Hk. apply Rmult_le_pos; [apply IZR_le; lia|]. apply level_nonneg; [apply C|apply N; lia].
Qed.

(** *** Steady sounds *)
Theorem phase_steady c M TH t v : config_ok c -> c_type c = 3 -> detects c M TH t v ->
  (v = 0%R <-> forall k, 0 <= k <= c_frame c / 2 -> same_angle (TH t k - past TH t 1 k) (past TH t 1 k - past TH t 2 k)).
Proof.
  intros C T. unfold detects. rewrite T. intros (d & D & E).
  assert (X : forall k, same_angle (TH t k - (2 * past TH t 1 k - past TH t 2 k)) 0 <->
    same_angle (TH t k - past TH t 1 k) (past TH t 1 k - past TH t 2 k)).
  { intros k. split; intros [q Q]; exists q; lra. }
  split.
  - intros V k Hk. apply X. apply off_turn_zero. rewrite V in E. symmetry in E.
    replace 0%R with (d k); [apply D; lia|]. apply (rsum_zero_all _ d) with (2 := E); [|lia]. intros i Hi. eapply off_turn_nonneg; eauto.
  - intros A. rewrite E. apply rsum_zero. intros k Hk. eapply off_turn_unique; [apply D; auto|]. apply off_turn_zero, X, A. lia.
Qed.

Theorem complex_steady c M TH t v : config_ok c -> c_type c = 4 -> detects c M TH t v ->
  let L := level c M in
  (v = 0%R <-> forall k, 0 <= k <= c_frame c / 2 ->
     (past L t 1 k * cos (2 * past TH t 1 k - past TH t 2 k) = L t k * cos (TH t k) /\
      past L t 1 k * sin (2 * past TH t 1 k - past TH t 2 k) = L t k * sin (TH t k))%R).
Proof.
  intros C T E L. unfold detects in E. rewrite T in E. split.
  - intros V k Hk. apply apart_zero. rewrite V in E. symmetry in E.
    exact (rsum_zero_all _ _ (fun k _ => sqrt_pos _) E k ltac:(lia)).
  - intros A. rewrite E. apply rsum_zero. intros k Hk. apply apart_zero, A. lia.
Qed.

(** The complex measure sees at least every change of magnitude. *)
Theorem complex_magnitude c M TH t v : config_ok c -> c_type c = 4 ->
  (forall s k, (s <= t)%nat -> 0 <= k <= c_frame c / 2 -> (0 <= M s k)%R) -> detects c M TH t v ->
  let L := level c M in let h := c_frame c / 2 + 1 in
  (rsum h (fun k => Rabs (L t k - past L t 1 k)) <= v <= rsum h (fun k => L t k + past L t 1 k))%R.
Proof.
  intros C T N D L h. unfold detects in D. rewrite T in D. subst v.
  assert (P : forall k, 0 <= k < h -> (0 <= past L t 1 k)%R /\ (0 <= L t k)%R).
  { intros k Hk. unfold h in Hk. split; [|apply level_nonneg; [apply C|apply N; lia]].
    unfold past. destruct (Nat.ltb_spec t 1); [lra|]. apply level_nonneg; [apply C|apply N; lia]. }
  split; apply rsum_le; intros k Hk; destruct (P k Hk) as [P1 P2];
    pose proof (apart_mag _ (2 * past TH t 1 k - past TH t 2 k)%R _ (TH t k) P1 P2) as [A B]; fold L.
  - rewrite Rabs_minus_sym. exact A.
  - lra.
Qed.

(** *** Levels *)
Definition louder (g : R) (f : frame) : frame :=
  match f with Samples x => Samples (map (Rmult g) x) | Bins re im => Bins (map (Rmult g) re) (map (Rmult g) im) end.

Lemma zn_scaled g l k : zn 0%R (map (Rmult g) l) k = (g * zn 0 l k)%R.
Proof.
  destruct (Z.lt_ge_cases k 0) as [H|H]; [rewrite !zn_out by lia; ring|].
  destruct (Z.lt_ge_cases k (zlen l)) as [H'|H']; [now rewrite (zn_map (Rmult g) 0%R 0%R) by lia|].
  rewrite !zn_out by (zl; lia). ring.
Qed.

Lemma louder_spectrum n g f k :
  spectrum_re n (louder g f) k = (g * spectrum_re n f k)%R /\ spectrum_im n (louder g f) k = (g * spectrum_im n f k)%R.
Proof.
  destruct f as [x|re im]; cbn [louder spectrum_re spectrum_im]; [|split; apply zn_scaled].
  unfold dft_re, dft_im. rewrite <- !Rmult_assoc, !(Rmult_comm g), !Rmult_assoc, <- !rsum_scal.
  split; apply rsum_ext; intros j Hj; rewrite zn_scaled; ring.
Qed.

Lemma louder_ok n g f : frame_ok n f -> frame_ok n (louder g f).
Proof. destruct f; cbn; zl; auto. Qed.

Lemma louder_polar n g fs M TH : (0 < g)%R -> polar_of n fs M TH -> polar_of n (map (louder g) fs) (fun t k => g * M t k)%R TH.
Proof.
  intros G P t f k Hf Hk. rewrite nth_error_map in Hf. destruct (nth_error fs t) as [f0|] eqn:E; [|discriminate].
  cbn in Hf. injection Hf as <-. destruct (louder_spectrum n g f0 k) as [-> ->].
  destruct (P t f0 k E Hk) as (A1 & A2 & A3 & A4 & A5). unfold polar. splits.
  - apply Rmult_le_pos; lra.
  - rewrite A2. ring.
  - rewrite A3. ring.
  - apply A4.
  - apply A4.
  - intros Z0. apply A5. nra.
Qed.

Lemma past_scaled g (F : nat -> Z -> R) t d k : past (fun t k => g * F t k)%R t d k = (g * past F t d k)%R.
Proof. unfold past. destruct (_ <? _)%nat; lra. Qed.
Lemma past_ext (F G : nat -> Z -> R) t d k : (forall s, (s <= t)%nat -> F s k = G s k) -> past F t d k = past G t d k.
Proof. intros H. unfold past. destruct (Nat.ltb_spec t d); auto. apply H. lia. Qed.

Lemma detects_louder g c M TH t v : (0 < g)%R -> c_whiten c = false -> detects c M TH t v ->
  detects c (fun t k => g * M t k)%R TH t (match c_type c with 1 | 2 | 4 => g * v | _ => v end)%R.
Proof.
  intros G W D.
  assert (Le : forall s k, level c (fun t k => g * M t k)%R s k = (g * level c M s k)%R) by (intros; unfold level; now rewrite W).
  assert (Pa : forall k, past (level c (fun t k => g * M t k)%R) t 1 k = (g * past (level c M) t 1 k)%R).
  { intros k. rewrite <- past_scaled. apply past_ext. auto. }
  unfold detects in *. destruct (c_type c) as [|p|p]; auto. do 3 (try destruct p as [p|p|]); auto; subst v.
  - apply rsum_ext. intros k Hk. rewrite Le, Pa. set (x := past (level c M) t 1 k). set (y := level c M t k).
    set (r := Rpower 10 (c_rise c / 10)).
    assert (E : forall b b' : bool, (b = true <-> b' = true) -> b = b') by (intros [|] [|] [A B]; auto; symmetry; auto).
    match goal with |- (if ?b then _ else _) = (if ?b' then _ else _) => replace b' with b; auto end.
    assert (0 < g * g)%R by nra.
    f_equal; apply E; rewrite !Rltb_true; split; intros A; try nra.
  - rewrite <- rsum_scal. apply rsum_ext. intros k Hk. rewrite Le, Pa. unfold apart.
    replace ((g * past (level c M) t 1 k * cos (2 * past TH t 1 k - past TH t 2 k) - g * level c M t k * cos (TH t k)) ^ 2 +
      (g * past (level c M) t 1 k * sin (2 * past TH t 1 k - past TH t 2 k) - g * level c M t k * sin (TH t k)) ^ 2)%R
    with (g * g * ((past (level c M) t 1 k * cos (2 * past TH t 1 k - past TH t 2 k) - level c M t k * cos (TH t k)) ^ 2 +
      (past (level c M) t 1 k * sin (2 * past TH t 1 k - past TH t 2 k) - level c M t k * sin (TH t k)) ^ 2))%R by ring.
    rewrite sqrt_mult_alt by nra. rewrite sqrt_square by lra. reflexivity.
  - rewrite <- rsum_scal. apply rsum_ext. intros k Hk. rewrite Le, Pa.
    replace ((g * level c M t k) ^ 2 - (g * past (level c M) t 1 k) ^ 2)%R with (g * g * (level c M t k ^ 2 - past (level c M) t 1 k ^ 2))%R by ring.
    rewrite Rabs_mult, (Rabs_right (g * g)) by nra. rewrite sqrt_mult_alt by nra. rewrite sqrt_square by lra. reflexivity.
  - rewrite <- rsum_scal. apply rsum_ext. intros k Hk. rewrite Le. ring.
Qed.

(** Polar coordinates of any spectra. *)
Lemma polar_exists n fs : exists M TH, polar_of n fs M TH.
Proof.
  set (f0 := Bins [] []).
  exists (fun t k => sqrt (spectrum_re n (nth t fs f0) k * spectrum_re n (nth t fs f0) k + spectrum_im n (nth t fs f0) k * spectrum_im n (nth t fs f0) k))%R,
         (fun t k => atan2 (spectrum_im n (nth t fs f0) k) (spectrum_re n (nth t fs f0) k)).
  intros t f k Hf Hk. rewrite (nth_error_nth fs t f0 Hf). apply atan2_polar.
Qed.

Lemma nth_error_ext {A} (l l' : list A) : length l = length l' ->
  (forall t x y, nth_error l t = Some x -> nth_error l' t = Some y -> x = y) -> l = l'.
Proof.
  revert l'. induction l as [|a l IH]; intros [|b l'] H E; try discriminate; auto. f_equal.
  - apply (E 0%nat); reflexivity.
  - apply IH; [cbn in H; lia|]. intros t. apply (E (S t)).
Qed.

Lemma nth_error_in {A} (l : list A) t : (t < length l)%nat -> exists x, nth_error l t = Some x.
Proof. intros H. destruct (nth_error l t) eqn:E; eauto. apply nth_error_None in E. lia. Qed.

(** A gain. *)
Theorem detection_gain c j fs g : config_ok c -> c_whiten c = false -> junk_ok (c_frame c) j -> Forall (frame_ok (c_frame c)) fs -> (0 < g)%R ->
  exists o o1 o2 vs, df_new c j = OK o /\ df_calls o fs = OK (o1, vs) /\
    df_calls o (map (louder g) fs) = OK (o2, map (match c_type c with 1 | 2 | 4 => Rmult g | _ => fun v => v end) vs).
Proof.
  intros C W J F G. destruct (polar_exists (c_frame c) fs) as (M & TH & P).
  destruct (detection_values c j fs M TH C J F P) as (o & o1 & vs & E & E1 & L1 & D1 & _).
  destruct (detection_values c j (map (louder g) fs) (fun t k => g * M t k)%R TH C J) as (o' & o2 & vs2 & E' & E2 & L2 & D2 & _).
  { apply Forall_map. eapply Forall_impl; [|exact F]. intros f. apply louder_ok. }
  { now apply louder_polar. }
  rewrite E in E'. injection E' as <-. exists o, o1, o2, vs. splits; auto. rewrite E2. do 2 f_equal.
  apply nth_error_ext; [rewrite map_length in *; lia|]. intros t x y Hx Hy. rewrite nth_error_map in Hy.
  destruct (nth_error vs t) as [v|] eqn:Hv; [|discriminate]. cbn in Hy. injection Hy as <-.
  eapply detects_unique; [apply D2; exact Hx|]. pose proof (detects_louder g c M TH t v G W (D1 _ _ Hv)) as D.
  destruct (c_type c) as [|p|p]; auto. do 3 (try destruct p as [p|p|]); auto.
Qed.

(** The values only depend on the spectra. *)
Theorem detection_spectra c j fs fs' : config_ok c -> junk_ok (c_frame c) j ->
  Forall (frame_ok (c_frame c)) fs -> Forall (frame_ok (c_frame c)) fs' -> length fs = length fs' ->
  (forall t f f' k, nth_error fs t = Some f -> nth_error fs' t = Some f' -> 0 <= k <= c_frame c / 2 ->
     spectrum_re (c_frame c) f k = spectrum_re (c_frame c) f' k /\ spectrum_im (c_frame c) f k = spectrum_im (c_frame c) f' k) ->
  exists o o1 o2 vs, df_new c j = OK o /\ df_calls o fs = OK (o1, vs) /\ df_calls o fs' = OK (o2, vs).
Proof.
  intros C J F F' Ll S. destruct (polar_exists (c_frame c) fs) as (M & TH & P).
  destruct (detection_values c j fs M TH C J F P) as (o & o1 & vs & E & E1 & L1 & D1 & _).
  destruct (detection_values c j fs' M TH C J F') as (o' & o2 & vs2 & E' & E2 & L2 & D2 & _).
  { intros t f' k Hf Hk. destruct (nth_error_in fs t) as (f & Hf0).
    - rewrite Ll. apply nth_error_Some. congruence.
    - destruct (S t f f' k Hf0 Hf Hk) as [<- <-]. now apply (P t). }
  rewrite E in E'. injection E' as <-. exists o, o1, o2, vs. splits; auto. rewrite E2. do 2 f_equal.
  apply nth_error_ext; [lia|]. intros t x y Hx Hy. eapply detects_unique; eauto.
Qed.

(** With whitening, level and floor together do not matter. *)
Lemma envelope_scaled g relax floor m t : (0 < g)%R ->
  envelope relax (g * floor) (fun s => g * m s)%R t = (g * envelope relax floor m t)%R.
Proof.
  intros G. induction t as [|t IH]; cbn [envelope]; rewrite ?IH; rewrite <- !RmaxRmult by lra; f_equal; f_equal; ring.
Qed.

Definition with_floor (c : dfconfig) (x : R) : dfconfig :=
  {| c_step := c_step c; c_frame := c_frame c; c_type := c_type c; c_rise := c_rise c; c_whiten := c_whiten c;
     c_relax := c_relax c; c_floor := x |}.

Theorem detection_whitened_gain c j fs g : config_ok c -> c_whiten c = true -> junk_ok (c_frame c) j ->
  Forall (frame_ok (c_frame c)) fs -> (0 < g)%R ->
  exists o o' o1 o2 vs, df_new c j = OK o /\ df_new (with_floor c (g * floor_of c)) j = OK o' /\ df_calls o fs = OK (o1, vs) /\
    df_calls o' (map (louder g) fs) = OK (o2, vs).
Proof.
  intros C W J F G. destruct (polar_exists (c_frame c) fs) as (M & TH & P).
  destruct (detection_values c j fs M TH C J F P) as (o & o1 & vs & E & E1 & L1 & D1 & _).
  assert (Fp : (0 < floor_of c)%R). { destruct C as (_ & _ & Fl). specialize (Fl W). unfold floor_of. destruct (Rltb_spec (c_floor c) 0); lra. }
  set (c' := with_floor c (g * floor_of c)).
  assert (Gf : (0 < g * floor_of c)%R) by (apply Rmult_lt_0_compat; auto).
  assert (C' : config_ok c'). { destruct C as (A & B & _). split; [exact A|]. split; [exact B|]. cbn. lra. }
  destruct (detection_values c' j (map (louder g) fs) (fun t k => g * M t k)%R TH C' J) as (o' & o2 & vs2 & E' & E2 & L2 & D2 & _).
  { apply Forall_map. eapply Forall_impl; [|exact F]. intros f. apply louder_ok. }
  { now apply louder_polar. }
  exists o, o', o1, o2, vs. splits; auto. rewrite E2. do 2 f_equal.
  apply nth_error_ext; [rewrite map_length in *; lia|]. intros t x y Hx Hy.
  eapply detects_unique; [apply D2; exact Hx|]. specialize (D1 _ _ Hy).
  assert (Le : forall s k, level c' (fun t k => g * M t k)%R s k = level c M s k).
  { intros s k. unfold level. cbn [c_whiten with_floor c']. rewrite W.
    replace (floor_of c') with (g * floor_of c)%R.
    2:{ unfold floor_of at 2. cbn [c_floor with_floor c']. destruct (Rltb_spec (g * floor_of c) 0); lra. }
    change (relax_of c') with (relax_of c). rewrite envelope_scaled by auto.
    destruct (envelope_above (relax_of c) (floor_of c) (fun s => M s k) s) as (A & _). field. split; lra. }
  assert (Pa : forall k, past (level c' (fun t k => g * M t k)%R) t 1 k = past (level c M) t 1 k) by (intros k; apply past_ext; auto).
  unfold detects in *. change (c_type c') with (c_type c). change (c_frame c') with (c_frame c). change (c_rise c') with (c_rise c).
  destruct (c_type c) as [|p|p]; auto. do 3 (try destruct p as [p|p|]); auto; subst y; apply rsum_ext; intros k Hk; rewrite ?Le, ?Pa; auto.
Qed.

(** A floor of 0 and silence at the start: 0/0. *)
Theorem detection_floor_zero c j f : 2 <= c_frame c < 2 ^ 31 -> c_frame c mod 2 = 0 -> c_whiten c = true -> c_floor c = 0%R ->
  junk_ok (c_frame c) j -> frame_ok (c_frame c) f ->
  (forall k, 0 <= k <= c_frame c / 2 -> spectrum_re (c_frame c) f k = 0%R /\ spectrum_im (c_frame c) f k = 0%R) ->
  exists o, df_new c j = OK o /\ df_process o f = UB.
Proof.
  intros N1 N2 W Fl J F Z0. set (Z := fun (_ : nat) (_ : Z) => 0%R).
  destruct (df_new_ok c Z Z (conj N1 N2) j J) as (o & E & S). exists o. split; [auto|].
  destruct (df_front_ok c Z Z (conj N1 N2) 0 o f S F) as (win & v & un & Ef & _).
  { intros k Hk. destruct (Z0 k Hk) as [-> ->]. unfold Z, polar. pose proof PI_RGT_0. splits; auto; lra. }
  rewrite Ef. destruct S as (T1 & T2 & T3 & T4 & T5 & T6 & T7 & T8 & T9 & T10 & T11 & _).
  unfold df_finish. rewrite T3, T5, T6, T7, T11, W. unfold whiten.
  assert (H : 0 < c_frame c / 2 + 1) by (pose proof (Z.div_pos (c_frame c) 2); lia).
  rewrite for_up_first by lia. rewrite !aget_tab by lia. cbn [bind].
  replace (floor_of c) with 0%R by (unfold floor_of; rewrite Fl; destruct (Rltb_spec 0 0); lra).
  replace (peak_kept c Z 0 0) with 0%R by (unfold peak_kept; now rewrite W). unfold Z.
  destruct (Rltb_spec 0 0); [lra|]. rewrite aset_tab by lia. cbn [bind]. destruct (Rltb_spec 0 0); [lra|].
  destruct (Reqb_spec 0 0); [reflexivity|lra].
Qed.

(** *** As seen by the caller *)
Lemma calls_detect c j fs M TH o o' vs : config_ok c -> junk_ok (c_frame c) j -> Forall (frame_ok (c_frame c)) fs ->
  polar_of (c_frame c) fs M TH -> df_new c j = OK o -> df_calls o fs = OK (o', vs) ->
  length vs = length fs /\ (forall t v, nth_error vs t = Some v -> detects c M TH t v) /\
  (fs <> [] -> zlen (d_mag o') = c_frame c / 2 + 1 /\ forall k, 0 <= k <= c_frame c / 2 ->
       zn 0%R (d_mag o') k = level c M (length fs - 1) k /\ same_angle (zn 0%R (d_unwrapped o') k) (TH (length fs - 1)%nat k)).
Proof.
  intros C J F P E E2. destruct (detection_values c j fs M TH C J F P) as (o1 & o2 & vs1 & X & Y & A & B & D).
  rewrite E in X. injection X as <-. rewrite E2 in Y. injection Y as <- <-. auto.
Qed.

Lemma polar_nonneg n fs M TH t v (vs : list R) : polar_of n fs M TH -> length vs = length fs -> nth_error vs t = Some v ->
  forall s k, (s <= t)%nat -> 0 <= k <= n / 2 -> (0 <= M s k)%R.
Proof.
  intros P L H s k Hs Hk. assert (t < length vs)%nat by (apply nth_error_Some; congruence).
  destruct (nth_error_in fs s) as (f & Hf); [lia|]. apply (P s f k Hf Hk).
Qed.

Theorem calls_phase c j fs M TH o o' vs t v : config_ok c -> c_type c = 3 -> junk_ok (c_frame c) j -> Forall (frame_ok (c_frame c)) fs ->
  polar_of (c_frame c) fs M TH -> df_new c j = OK o -> df_calls o fs = OK (o', vs) -> nth_error vs t = Some v ->
  (0 <= v <= IZR (c_frame c / 2 + 1) * PI)%R /\
  (v = 0%R <-> forall k, 0 <= k <= c_frame c / 2 -> same_angle (TH t k - past TH t 1 k) (past TH t 1 k - past TH t 2 k)).
Proof.
  intros C T J F P E E2 V. destruct (calls_detect _ _ _ _ _ _ _ _ C J F P E E2) as (_ & D & _).
  split; [eapply detects_phase_range|eapply phase_steady]; eauto.
Qed.

Theorem calls_complex c j fs M TH o o' vs t v : config_ok c -> c_type c = 4 -> junk_ok (c_frame c) j -> Forall (frame_ok (c_frame c)) fs ->
  polar_of (c_frame c) fs M TH -> df_new c j = OK o -> df_calls o fs = OK (o', vs) -> nth_error vs t = Some v ->
  let L := level c M in let h := c_frame c / 2 + 1 in
  (rsum h (fun k => Rabs (L t k - past L t 1 k)) <= v <= rsum h (fun k => L t k + past L t 1 k))%R /\
  (v = 0%R <-> forall k, 0 <= k <= c_frame c / 2 ->
     (past L t 1 k * cos (2 * past TH t 1 k - past TH t 2 k) = L t k * cos (TH t k) /\
      past L t 1 k * sin (2 * past TH t 1 k - past TH t 2 k) = L t k * sin (TH t k))%R).
Proof.
  intros C T J F P E E2 V. destruct (calls_detect _ _ _ _ _ _ _ _ C J F P E E2) as (Ll & D & _).
  split; [eapply complex_magnitude|eapply complex_steady]; eauto. eapply polar_nonneg; eauto.
Qed.

Theorem calls_broadband c j fs M TH o o' vs t v : config_ok c -> c_type c = 5 -> junk_ok (c_frame c) j -> Forall (frame_ok (c_frame c)) fs ->
  polar_of (c_frame c) fs M TH -> df_new c j = OK o -> df_calls o fs = OK (o', vs) -> nth_error vs t = Some v ->
  (0 <= v <= IZR (c_frame c / 2 + 1))%R /\ exists q : Z, v = IZR q.
Proof.
  intros C T J F P E E2 V. destruct (calls_detect _ _ _ _ _ _ _ _ C J F P E E2) as (Ll & D & _).
  specialize (D t v V). unfold detects in D. rewrite T in D. subst v. apply bins_with_range. now apply h_pos.
Qed.

Theorem calls_whitened c j fs M TH o o' vs : config_ok c -> c_whiten c = true -> junk_ok (c_frame c) j -> Forall (frame_ok (c_frame c)) fs ->
  polar_of (c_frame c) fs M TH -> fs <> [] -> df_new c j = OK o -> df_calls o fs = OK (o', vs) ->
  forall k, 0 <= k <= c_frame c / 2 ->
    (0 <= zn 0 (d_mag o') k <= 1)%R /\
    ((relax_of c <= 1)%R -> forall b, (floor_of c <= b)%R -> (forall s, (s < length fs)%nat -> (M s k <= b)%R) ->
       (M (length fs - 1)%nat k / b <= zn 0 (d_mag o') k)%R) /\
    (* a magnitude at least as great as all before, and as the floor, becomes 1 *)
    ((relax_of c <= 1)%R -> (floor_of c <= M (length fs - 1)%nat k)%R ->
       (forall s, (s < length fs)%nat -> (M s k <= M (length fs - 1)%nat k)%R) -> zn 0%R (d_mag o') k = 1%R).
Proof.
  intros C W J F P Ne E E2 k Hk. destruct (calls_detect _ _ _ _ _ _ _ _ C J F P E E2) as (Ll & _ & D).
  destruct (D Ne) as (_ & D2). destruct (D2 k Hk) as (-> & _). clear D D2.
  assert (Fl : c_floor c <> 0%R) by (now apply C).
  assert (Fp : (0 < floor_of c)%R) by (unfold floor_of; destruct (Rltb_spec (c_floor c) 0); lra).
  assert (Rp : (0 <= relax_of c)%R) by (unfold relax_of; destruct (Rltb_spec (c_relax c) 0); lra).
  assert (Lf : (0 < length fs)%nat) by (destruct fs; [congruence|cbn; lia]).
  assert (N : forall s, (s < length fs)%nat -> (0 <= M s k)%R).
  { intros s Hs. destruct (nth_error_in fs s Hs) as (f & Hf). apply (P s f k Hf Hk). }
  set (t := (length fs - 1)%nat) in *. assert (Ht : (t < length fs)%nat) by lia.
  destruct (envelope_above (relax_of c) (floor_of c) (fun s => M s k) t) as (A & B).
  assert (G : (relax_of c <= 1)%R -> forall b, (floor_of c <= b)%R -> (forall s, (s < length fs)%nat -> (M s k <= b)%R) ->
       (M t k / b <= level c M t k)%R).
  { intros R1 b Hb Mb. unfold level. rewrite W.
    pose proof (envelope_below (relax_of c) (floor_of c) (fun s => M s k) Rp b t R1 Hb) as Q. cbv beta in Q.
    assert (X : (envelope (relax_of c) (floor_of c) (fun s => M s k) t <= b)%R).
    { apply Q. intros s Hs. split; [apply N; lia|apply Mb; lia]. }
    set (e := envelope _ _ _ t) in *. apply Rmult_le_compat_l; [now apply N|]. apply Rinv_le_contravar; lra. }
  pose proof (level_unit c M t k W Fl (N t Ht)) as U.
  split; [exact U|]. split; [exact G|].
  intros R1 Hf Mt. specialize (G R1 (M t k) Hf Mt). unfold Rdiv in G. rewrite Rinv_r in G by lra. lra.
Qed.
