(** A small case: one feature, frames of two samples at 11025 Hz. *)
From Coq Require Import List ZArith QArith Qreals Reals Lia Lra Bool.
From Verif.Base Require Import Imp Sums RealOps Loops.
From Verif.Maths Require Import IntModel IntSpec IntProofs.
From Verif.Rate Require Import Df2tSpec Df2tProofs DecimatorModel DecimatorSpec.
From Verif.Fft Require Import Cplx FftModel FftBfly FftSpec FftProofs FftResults.
From Verif.Chroma Require Import CqModel CqSpec CqLoops CqProofs CqTime CqResults CqCase.
From Verif.Seg Require Import MeltSpec SegModel SegSpec ExtractModel ExtractSpec ExtractProofs ExtractResults ExtractClient ExtractFacts ExtractReinit.
Import ListNotations.
Open Scope Z_scope.

Definition tiny (secs : R) : params :=
  {| p_type := ConstQ; p_hop := secs; p_window := secs; p_fmin := 8000; p_fmax := 16000; p_bins := 1;
     p_states := 2; p_clusters := 2; p_hist := 2; p_limit := 1 |}.

Lemma tiny_sane s : (0 <= s)%R -> sane (tiny s).
Proof. intros H. unfold sane. cbn. splits; lia || auto. Qed.
Lemma tiny_size s : feature_size (tiny s) = 1.
Proof.
  unfold feature_size. cbn [tiny p_type p_bins p_fmax p_fmin]. replace (16000 / 8000)%R with 2%R by field.
  assert (0 < ln 2)%R by (rewrite <- ln_1; apply ln_increasing; lra).
  replace (1 * ln 2 / ln 2)%R with 1%R by (field; lra). apply Zceil_IZR.
Qed.
Lemma ceil_2 x : (1 < x <= 2)%R -> Zceil x = 2.
Proof. intros H. unfold Zceil. rewrite (Zfloor_unique (- x) (-2)); [reflexivity|]. lra. Qed.
Lemma tiny_length : Zceil (quality 1 * IZR 11025 / IZR 8000) = 2.
Proof. rewrite quality_1. apply ceil_2. lra. Qed.
Lemma next_power_2 : is_next_power 2 2.
Proof.
  unfold is_next_power, power_of_two. splits; try lia.
  exists 1. split; [lia|reflexivity].
Qed.
Lemma next_power_1 : is_next_power 1 1.
Proof.
  unfold is_next_power, power_of_two. splits; try lia.
  - exists 0. split; [lia|reflexivity].
Qed.
Lemma factor_11025 : is_factor 11025 11025 1.
Proof. exists 1. split; [exact next_power_1|reflexivity]. Qed.
Lemma factor_22050 : is_factor 11025 22050 2.
Proof. exists 2. split; [exact next_power_2|reflexivity]. Qed.
Lemma tiny_starts s rate : rate = 11025 \/ rate = 22050 -> starts (tiny s) rate.
Proof.
  intros Hr. unfold starts. cbn [tiny p_type]. intros f F. rewrite tiny_size. cbn [tiny p_bins p_fmin].
  assert (E : rate / f = 11025).
  { destruct Hr as [->| ->].
    - rewrite (is_factor_unique _ _ _ _ F factor_11025). reflexivity.
    - rewrite (is_factor_unique _ _ _ _ F factor_22050). reflexivity. }
  rewrite E, tiny_length. lia.
Qed.
Lemma tiny_frame s : frame_size (tiny s) 11025 2.
Proof. unfold frame_size. cbn [tiny p_type p_bins p_fmin]. rewrite tiny_length. exact next_power_2. Qed.

(** *** The level of a frame *)
Lemma root_2_1 : root 2 1 = (-1, 0)%R.
Proof. unfold root, cis. replace (2 * PI * 1 / 2)%R with PI by field. now rewrite cos_PI, sin_PI. Qed.
Lemma tiny_window : window_length 11025 8000 1 0 = 2.
Proof. unfold window_length. rewrite centre_0, quality_1. apply ceil_2. lra. Qed.
Definition tiny_atom (t : Z) : cplx := (if t =? 0 then (4/100, 0) else (-1/2, 0))%R.
Lemma hamming_2 t : 0 <= t < 2 -> hamming 2 t = (if t =? 0 then 8 / 100 else 1)%R.
Proof.
  intros Ht. unfold hamming. cbn [Z.leb Z.compare Pos.compare Pos.compare_cont].
  assert (C : t = 0 \/ t = 1) by lia. destruct C as [->| ->]; cbn [Z.eqb].
  - unfold Rdiv. rewrite Rmult_0_r, Rmult_0_l, cos_0. lra.
  - replace (2 * PI * 1 / 2)%R with PI by field. rewrite cos_PI. lra.
Qed.
Lemma tiny_atom_ok t : 0 <= t < 2 -> atom 11025 8000 1 2 0 t = tiny_atom t.
Proof.
  intros Ht. unfold atom. rewrite tiny_window, quality_1. cbv zeta. change (2 / 2 - 2 / 2) with 0. rewrite Z.sub_0_r.
  assert (E : cis (2 * PI * 1 * IZR t / 2) = root 2 t) by (unfold root; f_equal; field).
  rewrite E, hamming_2 by auto. destruct (Z.leb_spec 0 t), (Z.ltb_spec t 2); try lia. cbn [andb].
  assert (C : t = 0 \/ t = 1) by lia.
  destruct C as [->| ->]; rewrite ?root_0, ?root_2_1; apply cplx_eq; cbn; lra.
Qed.
Lemma csum_2 f : csum 2 f = cadd (f 0) (f 1).
Proof. change 2 with (0 + 1 + 1). rewrite !csum_S, csum_0 by lia. cbn [Z.add Pos.add Pos.succ]. ring. Qed.
Lemma spectrum_2 x : CqSpec.spectrum 2 x 1 = cadd (x 0) (cmul (cre (-1)) (x 1)).
Proof.
  rewrite spectrum_cdft by lia. unfold cdft. rewrite csum_2. cbn [sg].
  rewrite <- !(root_mod 2 (-1 * _)) by lia.
  change ((-1 * (0 * 1)) mod 2) with 0. change ((-1 * (1 * 1)) mod 2) with 1. rewrite root_0, root_2_1. apply cplx_eq; cbn; ring.
Qed.
Lemma tiny_kernel : kernel_bin 11025 8000 1 2 0 1 = (-54/100, 0)%R.
Proof.
  unfold kernel_bin. rewrite spectrum_2. unfold rotated. change (2 / 2) with 1. change ((0 + 1) mod 2) with 1. change ((1 + 1) mod 2) with 0.
  rewrite !tiny_atom_ok by lia. apply cplx_eq; cbn; lra.
Qed.
Lemma tiny_level x : constq_level 11025 8000 1 (54 / 10000) 2 x 0 = (27 / 100 * Rabs (8 / 100 * x 1%Z - x 0%Z))%R.
Proof.
  unfold constq_level, cq_bin. change (2 - 1) with 1. rewrite csum_1. change (0 + 1) with 1. change (2 - 1) with 1.
  assert (K : kept_bin 11025 8000 1 (54 / 10000) 2 0 1 = cre (-27/100)).
  { unfold kept_bin. rewrite tiny_kernel. cbn [Z.eqb Pos.eqb]. rewrite cabs_real.
    destruct Rle_dec as [H|H].
    - rewrite Rabs_left in H by lra. rewrite Rabs_pos_eq in H by lra. lra.
    - apply cplx_eq; cbn; lra. }
  rewrite K, spectrum_2. change (2 / 2) with 1. change ((0 + 1) mod 2) with 1. change ((1 + 1) mod 2) with 0.
  rewrite !hamming_2 by lia. cbn [Z.eqb].
  replace (cmul (cre (-27 / 100)) (cadd (cre (x 1%Z * (8 / 100))) (cmul (cre (-1)) (cre (x 0%Z * 1))))) with ((-27 / 100) * (8 / 100 * x 1%Z - x 0%Z), 0)%R
    by (apply cplx_eq; cbn; ring).
  rewrite cabs_real, Rabs_mult. f_equal. rewrite Rabs_left by lra. lra.
Qed.
Lemma tiny_feature s x c : feature (tiny s) 11025 2 x c 0 = mean_of c (fun k => 27 / 100 * Rabs (8 / 100 * zn 0 x (k + 1) - zn 0 x k))%R.
Proof.
  unfold feature, constq_feature. cbn [tiny p_type p_fmin p_bins]. unfold mean_of. f_equal. apply rsum_ext. intros k Hk.
  rewrite tiny_level. unfold frame_at. change (2 / 2) with 1. rewrite Z.mul_1_r, Z.add_0_r. reflexivity.
Qed.

Lemma rsum_1 f : rsum 1 f = f 0.
Proof. change 1 with (0 + 1). rewrite rsum_S, rsum_0 by lia. cbn [Z.add]. ring. Qed.
Lemma rsum_2 f : rsum 2 f = (f 0%Z + f 1%Z)%R.
Proof. change 2 with (0 + 1 + 1). rewrite !rsum_S, rsum_0 by lia. cbn [Z.add]. ring. Qed.
(** Blocks of at most three samples are one frame; of four, two. *)
Lemma tiny_one s x : zlen x <= 3 -> features_of (tiny s) 11025 x [27 / 100 * Rabs (8 / 100 * zn 0 x 1 - zn 0 x 0)]%R.
Proof.
  intros H. exists 2, 1. rewrite tiny_size. splits.
  - apply tiny_frame.
  - unfold frame_count. change (2 / 2) with 1. splits; lia.
  - reflexivity.
  - intros i Hi. assert (i = 0) by lia. subst i. rewrite tiny_feature. unfold mean_of. rewrite rsum_1. cbn. field.
Qed.
Lemma tiny_two s x : zlen x = 4 -> features_of (tiny s) 11025 x
  [(27 / 100 * Rabs (8 / 100 * zn 0 x 1 - zn 0 x 0) + 27 / 100 * Rabs (8 / 100 * zn 0 x 2 - zn 0 x 1)) / 2]%R.
Proof.
  intros H. exists 2, 2. rewrite tiny_size. splits.
  - apply tiny_frame.
  - unfold frame_count. change (2 / 2) with 1. splits; lia.
  - reflexivity.
  - intros i Hi. assert (i = 0) by lia. subst i. rewrite tiny_feature. unfold mean_of. rewrite rsum_2. cbn. field.
Qed.

(** *** Windows *)
Definition short : R := (1 / 11025)%R.
Lemma short_windows : window_samples (tiny short) 11025 = 1 /\ window_samples (tiny short) 22050 = 2.
Proof.
  unfold window_samples, short. cbn [tiny p_window]. split; apply Zfloor_unique; rewrite ?plus_IZR; cbn; lra.
Qed.
Lemma short_sane : sane (tiny short).
Proof. apply tiny_sane. unfold short. lra. Qed.

(** Objects initialised for either rate. *)
Lemma tiny_object rate : rate = 11025 \/ rate = 22050 ->
  exists o, life (tiny short) (Some (rate, [])) o /\ t_features (u_seg o) = [].
Proof.
  intros Hr. destruct (initialise_starts (tiny short) None (melter_new (tiny short) 0 0 (Segmentation 0 0 [])) (fun _ _ => 0%R) rate) as (o & E & L & F & _).
  - exact short_sane.
  - constructor.
  - exact I.
  - lia.
  - now apply tiny_starts.
  - exists o. split; auto.
Qed.

(** *** Examples *)
(** Four samples, two frames. *)
Lemma tiny_four a b c d : is_features (tiny short) 11025 [] [a; b; c; d]
  [(27 / 100 * Rabs (8 / 100 * b - a) + 27 / 100 * Rabs (8 / 100 * c - b)) / 2]%R.
Proof.
  exists 1, [a; b; c; d]. split; [exact factor_11025|]. split; [reflexivity|]. exact (tiny_two short [a; b; c; d] eq_refl).
Qed.
Lemma tiny_block x : 1 <= zlen x -> block_ok (tiny short) 11025 x.
Proof. intros H. unfold block_ok. destruct short_windows as [-> _]. split; auto. right. exact factor_11025. Qed.
(** Two samples at twice the rate: one frame, of one sample. *)
Lemma tiny_half past a b x : is_decimated 2 past [a; b] [x] -> is_features (tiny short) 22050 past [a; b] [27 / 100 * Rabs x]%R.
Proof.
  intros H. exists 2, [x]. split; [exact factor_22050|]. split; [exact H|]. pose proof (tiny_one short [x] ltac:(unfold zlen; cbn [length]; lia)) as K.
  change (zn 0%R [x] 1) with 0%R in K. change (zn 0%R [x] 0) with x in K.
  replace (8 / 100 * 0 - x)%R with (- x)%R in K by ring. rewrite Rabs_Ropp in K. exact K.
Qed.
Lemma tiny_block2 a b : block_ok (tiny short) 22050 [a; b].
Proof. unfold block_ok. destruct short_windows as [_ ->]. split; [cbn; lia|]. left. reflexivity. Qed.

(** *** What does not hold *)
(** The features depend on the block alone: false, the decimator remembers. *)
Definition lag2 : R :=
  (Q2R (819741973072733 # 1000000000000000) -
   (Q2R (40011234879814367 # 100000000000000000) - Q2R (20898944260075727 # 100000000000000000) * Q2R (77331184208358217 # 10000000000000000000)) * Q2R (77331184208358217 # 10000000000000000000) -
   Q2R (20898944260075727 # 100000000000000000) * Q2R (19853971155964376 # 10000000000000000))%R.
Lemma lag2_pos : (0 < lag2)%R.
Proof. unfold lag2, Q2R. cbn [Qnum Qden]. lra. Qed.

Lemma response_impulse x : is_decimated 2 [1; 0]%R [0; 0]%R x -> x = [lag2].
Proof.
  unfold is_decimated. change (2 =? 1) with false. cbv iota. change (DecimatorModel.coefficients 2) with (b_2, a_2). cbv iota beta.
  intros (ys & (L & H) & Lx & Hx). cbn [app] in *. change (zlen [0; 0]%R / 2) with 1 in Lx. change (zlen [1; 0; 0; 0]%R) with 4 in *.
  apply (zn_ext 0%R); [exact Lx|]. intros i Hi. assert (i = 0) by lia. subst i. rewrite Hx by lia. change (zlen [1; 0]%R + 2 * 0) with 2.
  change (zn 0%R [lag2] 0) with lag2.
  pose proof (H 0 ltac:(lia)) as H0. pose proof (H 1 ltac:(lia)) as H1. pose proof (H 2 ltac:(lia)) as H2. clear H Hx.
  unfold pairs, lead, b_2, a_2 in *. cbn [map tl hd combine contribution] in *.
  change (0 - 1) with (-1) in *. change (1 - 1) with 0 in *. change (2 - 1) with 1 in *. change (0 - 1) with (-1) in *. change (1 - 1) with 0 in *. change (0 - 1) with (-1) in *.
  cbn [Z.ltb Z.compare Z.leb] in *.
  change (zn 0%R [1; 0; 0; 0]%R 0) with 1%R in *. change (zn 0%R [1; 0; 0; 0]%R 1) with 0%R in *. change (zn 0%R [1; 0; 0; 0]%R 2) with 0%R in *.
  rewrite H2, H1, H0. unfold lag2. ring.
Qed.
Lemma response_silence x : is_decimated 2 [] [0; 0]%R x -> x = [0%R].
Proof.
  unfold is_decimated. change (2 =? 1) with false. cbv iota. change (DecimatorModel.coefficients 2) with (b_2, a_2). cbv iota beta.
  intros (ys & (L & H) & Lx & Hx). cbn [app] in *. change (zlen [0; 0]%R / 2) with 1 in Lx. change (zlen [0; 0]%R) with 2 in *.
  apply (zn_ext 0%R); [exact Lx|]. intros i Hi. assert (i = 0) by lia. subst i. rewrite Hx by lia. change (zlen (@nil R) + 2 * 0) with 0.
  change (zn 0%R [0%R] 0) with 0%R.
  pose proof (H 0 ltac:(lia)) as H0. unfold pairs, lead, b_2, a_2 in *. cbn [map tl hd combine contribution] in *.
  change (0 - 1) with (-1) in *. cbn [Z.ltb Z.compare Z.leb] in *. change (zn 0%R [0; 0]%R 0) with 0%R in *. rewrite H0. ring.
Qed.
Lemma tiny_reduced past block v : is_features (tiny short) 22050 past block v ->
  exists x, is_decimated 2 past block x /\ features_of (tiny short) 11025 x v.
Proof.
  intros (f & x & F & D & V). assert (f = 2) by exact (is_factor_unique _ _ _ _ F factor_22050). subst f. exists x. split; auto.
Qed.
Lemma tiny_determined x v w : features_of (tiny short) 11025 x v -> features_of (tiny short) 11025 x w -> v = w.
Proof.
  intros (n & c & N & C & L & V) (n' & c' & N' & C' & L' & V').
  rewrite (frame_size_unique _ _ _ _ N (tiny_frame short)) in *. rewrite (frame_size_unique _ _ _ _ N' (tiny_frame short)) in *.
  assert (c' = c) by (eapply frame_count_unique; eauto; lia). subst c'.
  apply (zn_ext 0%R); [congruence|]. intros i Hi. rewrite V, V' by lia. reflexivity.
Qed.

Theorem block_alone_refuted : exists p rate past o1 o2 block o1' o2' mem v1 v2,
  sane p /\ starts p rate /\ life p (Some (rate, [])) o1 /\ life p (Some (rate, past)) o2 /\ block_ok p rate block /\
  extract o1 mem block = OK o1' /\ t_features (u_seg o1') = t_features (u_seg o1) ++ [v1] /\
  extract o2 mem block = OK o2' /\ t_features (u_seg o2') = t_features (u_seg o2) ++ [v2] /\ v1 <> v2.
Proof.
  destruct (tiny_object 22050) as (o1 & L1 & _); [auto|]. set (mem := fun _ _ : Z => 0%R).
  assert (T : p_type (tiny short) <> Unknown) by discriminate.
  destruct (extract_adds (tiny short) 22050 [] o1 mem [1; 0]%R short_sane T L1 (tiny_block2 1 0)) as (o2 & v & _ & L2 & _ & _ & _). cbn [app] in L2.
  destruct (extract_adds (tiny short) 22050 [] o1 mem [0; 0]%R short_sane T L1 (tiny_block2 0 0)) as (o1' & v1 & E1 & _ & F1 & _ & V1).
  destruct (extract_adds (tiny short) 22050 [1; 0]%R o2 mem [0; 0]%R short_sane T L2 (tiny_block2 0 0)) as (o2' & v2 & E2 & _ & F2 & _ & V2).
  exists (tiny short), 22050, [1; 0]%R, o1, o2, [0; 0]%R, o1', o2', mem, v1, v2. splits; auto.
  - exact short_sane.
  - apply tiny_starts. auto.
  - apply tiny_block2.
  - intros ->. apply tiny_reduced in V1 as (x1 & D1 & V1). apply tiny_reduced in V2 as (x2 & D2 & V2).
    apply response_silence in D1 as ->. apply response_impulse in D2 as ->.
    pose proof (tiny_determined _ _ _ V1 (tiny_one short [0%R] ltac:(unfold zlen; cbn [length]; lia))) as Q1.
    pose proof (tiny_determined _ _ _ V2 (tiny_one short [lag2] ltac:(unfold zlen; cbn [length]; lia))) as Q2.
    rewrite Q1 in Q2. injection Q2 as Q. change (zn 0%R [0%R] 1) with 0%R in Q. change (zn 0%R [0%R] 0) with 0%R in Q.
    change (zn 0%R [lag2] 1) with 0%R in Q. change (zn 0%R [lag2] 0) with lag2 in Q. pose proof lag2_pos as P.
    replace (8 / 100 * 0 - 0)%R with 0%R in Q by ring. replace (8 / 100 * 0 - lag2)%R with (- lag2)%R in Q by ring.
    rewrite Rabs_R0, Rabs_Ropp, Rabs_pos_eq in Q by lra. lra.
Qed.

(** The features depend on samples only: false, of a block longer than a window. *)
Theorem overlong_refuted : exists p rate o block mem1 mem2 o1 o2 v1 v2,
  sane p /\ starts p rate /\ life p (Some (rate, [])) o /\ window_samples p rate <= zlen block /\
  extract o mem1 block = OK o1 /\ t_features (u_seg o1) = t_features (u_seg o) ++ [v1] /\
  extract o mem2 block = OK o2 /\ t_features (u_seg o2) = t_features (u_seg o) ++ [v2] /\ v1 <> v2.
Proof.
  destruct (tiny_object 22050) as (o & L & _); [auto|].
  assert (T : p_type (tiny short) <> Unknown) by discriminate.
  assert (B : window_samples (tiny short) 22050 <= zlen [0; 0; 0; 0]%R) by (destruct short_windows as [_ ->]; unfold zlen; cbn [length]; lia).
  assert (K : forall m : R, exists o' v, extract o (fun _ _ => m) [0; 0; 0; 0]%R = OK o' /\ t_features (u_seg o') = t_features (u_seg o) ++ [v] /\
    v = [27 / 100 * Rabs (8 / 100 * m)]%R).
  { intros m. destruct (extract_overlong (tiny short) 22050 [] o (fun _ _ => m) [0; 0; 0; 0]%R 2 short_sane T L factor_22050 ltac:(lia) B) as (o' & v & x & E & F & O & V).
    exists o', v. splits; auto. destruct O as (ys & H & Lx & Hx). destruct short_windows as [_ W]. rewrite W in *. cbv beta in Hx.
    change (zlen [0; 0; 0; 0]%R / 2) with 2 in Lx. change (22050 / 2) with 11025 in V.
    assert (X : x = [0; m]%R).
    { assert (D : is_decimated 2 [] [0; 0]%R [zn 0%R x 0]).
      { exists ys. split; [exact H|]. split; [reflexivity|]. intros i Hi. assert (i = 0) by (unfold zlen in Hi; cbn [length] in Hi; lia). subst i.
        change (zn 0%R [zn 0%R x 0] 0) with (zn 0%R x 0). rewrite Hx by lia. reflexivity. }
      apply response_silence in D. injection D as D.
      apply (zn_ext 0%R); [exact Lx|]. intros i Hi. assert (C : i = 0 \/ i = 1) by lia. destruct C as [-> | ->].
      - rewrite D. reflexivity.
      - rewrite Hx by lia. reflexivity. }
    subst x. pose proof (tiny_determined _ _ _ V (tiny_one short [0; m]%R ltac:(unfold zlen; cbn [length]; lia))) as Q. rewrite Q.
    change (zn 0%R [0; m]%R 1) with m. change (zn 0%R [0; m]%R 0) with 0%R. f_equal. f_equal. f_equal. ring. }
  destruct (K 0%R) as (o1 & v1 & E1 & F1 & V1). destruct (K 1%R) as (o2 & v2 & E2 & F2 & V2).
  exists (tiny short), 22050, o, [0; 0; 0; 0]%R, (fun _ _ => 0%R), (fun _ _ => 1%R), o1, o2, v1, v2. splits; auto.
  - exact short_sane.
  - apply tiny_starts. auto.
  - rewrite V1, V2. intros Q. injection Q as Q. rewrite Rmult_0_r, Rabs_R0, Rabs_pos_eq in Q by lra. lra.
Qed.

(** The features average all frames that fit in a block: false, a frame that ends with the block is left out. *)
Theorem all_frames_refuted : exists p rate n count block v,
  sane p /\ starts p rate /\ block_ok p rate block /\ is_factor (internal_rate p) rate 1 /\ frame_size p rate n /\
  (count - 1) * (n / 2) + n = zlen block /\ is_features p rate [] block v /\
  zn 0%R v 0 <> feature p rate n block count 0.
Proof.
  exists (tiny short), 11025, 2, 2, [0; 1; 0]%R, [27 / 100 * (8 / 100)]%R. splits.
  - exact short_sane.
  - apply tiny_starts. auto.
  - apply tiny_block. unfold zlen. cbn [length]. lia.
  - exact factor_11025.
  - apply tiny_frame.
  - reflexivity.
  - exists 1, [0; 1; 0]%R. split; [exact factor_11025|]. split; [reflexivity|].
    pose proof (tiny_one short [0; 1; 0]%R ltac:(unfold zlen; cbn [length]; lia)) as K.
    change (zn 0%R [0; 1; 0]%R 1) with 1%R in K. change (zn 0%R [0; 1; 0]%R 0) with 0%R in K.
    rewrite Rabs_pos_eq in K by lra. replace (8 / 100 * 1 - 0)%R with (8 / 100)%R in K by ring. exact K.
  - rewrite tiny_feature. unfold mean_of. rewrite rsum_2. cbn [Z.add Pos.add Pos.succ]. change (zn 0%R [27 / 100 * (8 / 100)]%R 0) with (27 / 100 * (8 / 100))%R.
    change (zn 0%R [0; 1; 0]%R 1) with 1%R. change (zn 0%R [0; 1; 0]%R 0) with 0%R. change (zn 0%R [0; 1; 0]%R 2) with 0%R.
    rewrite Rabs_pos_eq by lra. rewrite Rabs_left by lra. lra.
Qed.

(** An object can be initialised anew: false, from 22050 Hz to 11025 Hz. *)
Theorem reinitialise_refuted : exists p rate rate' o o' mem block,
  sane p /\ starts p rate /\ starts p rate' /\ 1 <= rate' /\ life p (Some (rate, [])) o /\
  initialise o mem rate' = OK o' /\ window_samples p rate' <= zlen block /\ forall mem', extract o' mem' block = UB.
Proof.
  destruct (tiny_object 22050) as (o & L & _); [auto|]. set (mem := fun _ _ : Z => 0%R).
  assert (T : p_type (tiny short) <> Unknown) by discriminate. destruct short_windows as [W1 W2].
  assert (K : forall mem', exists o', initialise o mem 11025 = OK o' /\ extract o' mem' [1%R] = UB).
  { intros mem'. apply (reinitialised_overrun (tiny short) 22050 [] o mem 11025 mem' [1%R]) with (f := 2); auto; try lia.
    - exact short_sane.
    - apply tiny_starts; auto.
    - exact factor_11025.
    - exact factor_22050.
    - rewrite W1. unfold zlen. cbn [length]. lia.
    - rewrite W2. reflexivity. }
  destruct (K mem) as (o' & E & _). exists (tiny short), 22050, 11025, o, o', mem, [1%R]. splits; auto.
  - exact short_sane.
  - apply tiny_starts. auto.
  - apply tiny_starts. auto.
  - lia.
  - rewrite W1. unfold zlen. cbn [length]. lia.
  - intros mem'. destruct (K mem') as (o2 & E2 & U). congruence.
Qed.
