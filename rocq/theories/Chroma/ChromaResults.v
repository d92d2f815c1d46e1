(** Chromagrams as an owner of the object sees them. *)
From Coq Require Import List ZArith Reals Lia Lra Bool.
From Verif.Base Require Import Imp Sums RealOps Loops.
From Verif.Maths Require Import IntModel IntSpec IntProofs RealModel RealSpec RealProofs.
From Verif.Windows Require Import WindowModel WindowSpec WindowProofs.
From Verif.Fft Require Import Cplx FftModel FftSpec FftProofs FftrModel FftResults.
From Verif.Chroma Require Import CqModel CqSpec CqLoops CqProofs CqTime CqResults CqCase ChromaModel ChromaSpec ChromaProofs.
Import ListNotations.
Open Scope Z_scope.

Lemma cq_bin_ext fs f b th n X Y k : (forall i, 1 <= i < n -> X i = Y i) -> cq_bin fs f b th n X k = cq_bin fs f b th n Y k.
Proof. intros H. unfold cq_bin. apply csum_ext. intros i Hi. rewrite H by lia. reflexivity. Qed.
Lemma is_normalised_ext t n r1 r2 d : (forall i, 0 <= i < n -> r1 i = r2 i) -> is_normalised t n r1 d -> is_normalised t n r2 d.
Proof.
  intros E. destruct t; cbn.
  - intros H i Hi. rewrite <- E by auto. auto.
  - intros [H|(A & m & Pm & H)]; [left|right; split; auto; exists m; split; auto]; intros i Hi; rewrite <- E by auto; auto.
  - intros [H|(A & m & Pm & H)]; [left|right; split; auto; exists m; split; auto]; intros i Hi; rewrite <- E by auto; auto.
Qed.

Lemma process_time_ok c o s jbuf data (n := g_size o) : chroma_usable c -> chroma_inv c o -> (g_generated o = false -> scratch_for n s) ->
  n <= zlen data -> zlen jbuf = n ->
  exists o' d, process_time o s jbuf data = OK (o', d) /\ chroma_inv c o' /\ g_generated o' = true /\ g_size o' = n /\ g_uk o' = g_uk o /\
    zlen d = h_bpo c /\
    is_normalised (h_norm c) (h_bpo c)
      (pitch_class (h_bpo c) (octaves_of c) (chroma_bin c n (spectrum n (rotated n (windowed n (zn 0%R data)))))) (zn 0%R d).
Proof.
  intros U I S L1 L2. unfold process_time.
  destruct (generate_ok c o s U I S) as (o1 & E1 & I1 & G1 & N1 & K1). rewrite E1. cbn [bind]. clear S I E1. fold n in N1.
  pose proof I1 as [A1 A2 A3 A4 A5 A6 A7 A8 A9 A10 A11 A12 A13 A14]. rewrite N1 in *. destruct A8 as [A8 A8'].
  assert (N30 : n <= 2 ^ 30).
  { destruct (chroma_len c _ _ U A4) as [X _]. rewrite <- A6 in X. lia. }
  assert (W : exists buf0, (match g_window o1 with Some w => OK (w, g_buf o1) | None => w <- encache Hamming n ;; OK (w, jbuf) end)
     = OK (ztab n (hamming n), buf0) /\ zlen buf0 = n).
  { destruct (g_window o1) as [w|].
    - destruct A14 as [-> A14]. exists (g_buf o1). split; [reflexivity|exact A14].
    - rewrite hamming_ok by lia. exists jbuf. split; [reflexivity|lia]. }
  destruct W as (buf0 & EW & Lb). rewrite EW. cbn [bind]. clear EW.
  rewrite (for_up_set n (fun i => aget data i) (zn 0%R data)).
  2: lia. 2: { intros i Hi. apply aget_OK. lia. }
  cbn [bind]. rewrite skipn_zlen, app_nil_r by lia.
  destruct (cut_in_place_ok (ztab n (hamming n)) n (ztab n (zn 0%R data))) as (b1 & E2 & Lb1 & Pb & _); try (zl; lia).
  rewrite E2. cbn [bind]. rewrite Z.quot_div_nonneg by lia.
  assert (Lb1' : zlen b1 = n) by (zl; lia).
  rewrite (swap_halves_ok (n / 2) b1) by lia. cbn [bind]. rewrite <- A8'.
  set (b2 := ztab n (fun t => zn 0%R b1 ((t + n / 2) mod n))).
  assert (Vb : forall t, 0 <= t < n -> rotated n (windowed n (zn 0%R data)) t = (zn 0%R b2 t, 0%R)).
  { intros t Ht. unfold rotated, windowed, b2. rewrite zn_ztab by lia. pose proof (Z.mod_pos_bound (t + n / 2) n ltac:(lia)) as B.
    set (u := (t + n / 2) mod n) in *. rewrite (Pb u B). rewrite !zn_ztab by lia. reflexivity. }
  destruct (fftreal_forward_dft n (g_fft o1) b2 (g_re o1) (g_im o1)) as (t' & re & im & E3 & Ut & (R1 & R2 & _) & (M1 & M2 & _));
    try (unfold b2; zl; lia); auto.
  { rewrite A8'. rewrite Z.mul_comm. apply Z.mod_mul. lia. }
  rewrite E3. cbn [bind].
  match goal with |- exists _ _, process_freq ?O _ _ _ = _ /\ _ => set (o2 := O) end.
  assert (I2 : chroma_inv c o2).
  { constructor; unfold o2; cbn [g_bpo g_norm g_data g_cq g_generated g_uk g_size g_hop g_fft g_re g_im g_cqre g_cqim g_window g_buf]; rewrite ?N1; auto; try lia.
    split; auto. unfold b2; zl; lia. }
  destruct (process_freq_ok c o2 s re im U I2) as (o' & d & E4 & I4 & G4 & N4 & K4 & Ld & Nd).
  { intros X. unfold o2 in X. cbn in X. congruence. }
  { unfold o2; cbn [g_size]. lia. }
  { unfold o2; cbn [g_size]. lia. }
  assert (N2 : g_size o2 = n) by reflexivity. rewrite N2 in *.
  exists o', d. splits; auto.
  { rewrite K4. exact K1. }
  eapply is_normalised_ext; [|exact Nd]. intros i Hi. cbv beta. unfold pitch_class. apply rsum_ext. intros k Hk. f_equal.
  apply cq_bin_ext. intros b Hb. unfold frame. rewrite R2, M2 by lia. unfold spectrum.
  f_equal; unfold dft_re, dft_im; apply rsum_ext; intros t Ht; rewrite (Vb t Ht); reflexivity.
Qed.

(** Objects built for configuration [c], then used in any way. *)
Inductive chroma_uses (c : chromaconfig) : chroma -> Prop :=
| hu_new f o : chroma_new c f = OK o -> fresh_for c (g_size o) (g_uk o) f -> chroma_uses c o
| hu_freq o s re im o' d : chroma_uses c o -> scratch_for (g_size o) s -> g_size o <= zlen re -> g_size o <= zlen im ->
    process_freq o s re im = OK (o', d) -> chroma_uses c o'
| hu_time o s jbuf data o' d : chroma_uses c o -> scratch_for (g_size o) s -> zlen jbuf = g_size o -> g_size o <= zlen data ->
    process_time o s jbuf data = OK (o', d) -> chroma_uses c o'.

Lemma chroma_uses_inv c o : chroma_usable c -> chroma_uses c o -> chroma_inv c o.
Proof.
  intros U. induction 1 as [f o E F|o s re im o' d _ IH S L1 L2 E|o s jbuf data o' d _ IH S L1 L2 E].
  - now destruct (chroma_new_inv c f o U E F).
  - destruct (process_freq_ok c o s re im U IH (fun _ => S) L1 L2) as (o1 & d1 & E1 & I & _). congruence.
  - destruct (process_time_ok c o s jbuf data U IH (fun _ => S) L2 L1) as (o1 & d1 & E1 & I & _). congruence.
Qed.

Theorem chroma_constructed c f (l := Zceil (quality (h_bpo c) * h_fs c / h_min c)) :
  chroma_usable c -> 2 <= l <= 2 ^ 30 -> 0 <= h_bpo c * octaves_of c < 2 ^ 30 ->
  (forall n, is_next_power l n -> fresh_for c n (h_bpo c * octaves_of c) f) ->
  exists o, chroma_new c f = OK o /\ chroma_uses c o /\ is_next_power l (g_size o) /\ g_uk o = h_bpo c * octaves_of c /\ g_hop o = g_size o / 8.
Proof.
  intros U Hl Hk F. pose proof U as (Ub & Us & Uf).
  destruct (cq_constructed (cq_config c) (f_cq f)) as (q & Eq); auto.
  { cbn [cq_config c_bpo c_fs c_min]. fold l. lia. }
  { rewrite chroma_bins by auto. lia. }
  destruct (next_spec l ltac:(lia)) as (p & Ep & Np & _). specialize (Np ltac:(lia)).
  destruct (F p Np) as (F1 & F2 & F3 & F4 & F5 & F6 & F7 & F8 & F9).
  assert (Kq : q_uk q = h_bpo c * octaves_of c).
  { unfold cq_new in Eq. apply bind_OK in Eq as (uk & E1 & E). apply int_inv in E1 as [-> _]. rewrite chroma_bins in E by auto.
    apply bind_OK in E as (l' & _ & E). apply bind_OK in E as (p' & _ & E). apply bind_OK in E as (z & E2 & E). 
    destruct (z <? 0); [congruence|]. injection E as <-. reflexivity. }
  assert (Uq : cq_uses (cq_config c) false q) by (eapply cu_new; [exact Eq|lia]).
  destruct (cq_parameters _ _ _ (chroma_cq_usable c U) Uq) as (_ & _ & Nq & Hq). cbn [cq_config c_bpo c_fs c_min] in Nq. fold l in Nq.
  assert (Lq : q_len q = p).
  { destruct Nq as (P1 & P2 & P3). destruct Np as (Q1 & Q2 & Q3). specialize (P3 p Q1 Q2). specialize (Q3 _ P1 P2). lia. }
  destruct (chroma_len c false q U Uq) as (H30 & Hh). destruct Np as (P1 & P2 & P3).
  destruct Hh as [Hh|[Hh1 Hh2]]; [lia|].
  assert (Ex : exists t, fftreal_new (q_len q) (f_1 f) (f_2 f) (f_c f) = OK t).
  { apply (proj2 (fftreal_construction (q_len q) (f_1 f) (f_2 f) (f_c f))); rewrite ?Lq in *; try lia.
    rewrite Hh2, Z.mul_comm. apply Z.mod_mul. lia. }
  destruct Ex as (t & Et).
  assert (E : exists o, chroma_new c f = OK o /\ g_size o = q_len q /\ g_uk o = q_uk q /\ g_hop o = q_hop q).
  { unfold chroma_new. rewrite Eq. cbn [bind]. rewrite Et. cbn [bind]. eexists; split; [reflexivity|]. auto. }
  destruct E as (o & E & B1 & B2 & B3). exists o. splits; auto; try congruence.
  eapply hu_new; [exact E|]. rewrite B1, B2, Kq. apply F. exact Nq.
Qed.

(** A minimum frequency too high for the sample rate (a frame of one sample) is refused by an exception. *)
Theorem chroma_constructor_throws c f :
  chroma_usable c -> Zceil (quality (h_bpo c) * h_fs c / h_min c) <= 1 -> 0 <= h_bpo c * octaves_of c < 2 ^ 30 -> chroma_new c f = Throw.
Proof.
  intros U Hl Hk. pose proof U as (Ub & Us & Uf).
  destruct (cq_constructed (cq_config c) (f_cq f)) as (q & Eq); auto.
  { cbn [cq_config c_bpo c_fs c_min]. lia. }
  { rewrite chroma_bins by auto. lia. }
  unfold chroma_new. rewrite Eq. cbn [bind].
  assert (q_len q = 1) as ->; [|reflexivity].
  unfold cq_new in Eq. apply bind_OK in Eq as (uk & E1 & E). apply bind_OK in E as (l' & E2 & E). apply int_inv in E2 as [-> _].
  apply bind_OK in E as (p & E3 & E). apply bind_OK in E as (z & _ & E). destruct (z <? 0); [congruence|]. injection E as <-. cbn [q_len].
  change (1 / (Rpower 2 (1 / IZR (c_bpo (cq_config c))) - 1))%R with (quality (h_bpo c)) in E3. cbn [cq_config c_fs c_min] in E3.
  destruct (next_spec (Zceil (quality (h_bpo c) * h_fs c / h_min c)) ltac:(lia)) as (p' & E' & N & M). rewrite E3 in E'. injection E' as <-.
  destruct (Z.le_gt_cases 1 (Zceil (quality (h_bpo c) * h_fs c / h_min c))) as [G|G]; [|apply M; lia].
  destruct (N G) as ((k & Hk1 & ->) & _ & B). specialize (B 1 ltac:(exists 0; split; [lia|reflexivity]) ltac:(lia)).
  assert (0 < 2 ^ k) by (apply Z.pow_pos_nonneg; lia). lia.
Qed.

Theorem chroma_freq c o s re im (n := g_size o) : chroma_usable c -> chroma_uses c o -> scratch_for n s ->
  n <= zlen re -> n <= zlen im ->
  exists o' d, process_freq o s re im = OK (o', d) /\ chroma_uses c o' /\ g_size o' = n /\ zlen d = h_bpo c /\
    is_normalised (h_norm c) (h_bpo c) (pitch_class (h_bpo c) (octaves_of c) (chroma_bin c n (frame re im))) (zn 0%R d).
Proof.
  intros U H S L1 L2. pose proof (chroma_uses_inv c o U H) as I.
  destruct (process_freq_ok c o s re im U I (fun _ => S) L1 L2) as (o1 & d1 & E1 & I1 & _ & N1 & _ & Ld & Nd).
  exists o1, d1. splits; auto. eapply hu_freq; [exact H|..|exact E1]; auto.
Qed.

Theorem chroma_time c o s jbuf data (n := g_size o) : chroma_usable c -> chroma_uses c o -> scratch_for n s ->
  zlen jbuf = n -> n <= zlen data ->
  exists o' d, process_time o s jbuf data = OK (o', d) /\ chroma_uses c o' /\ g_size o' = n /\ zlen d = h_bpo c /\
    is_normalised (h_norm c) (h_bpo c)
      (pitch_class (h_bpo c) (octaves_of c) (chroma_bin c n (spectrum n (rotated n (windowed n (zn 0%R data)))))) (zn 0%R d).
Proof.
  intros U H S L1 L2. pose proof (chroma_uses_inv c o U H) as I.
  destruct (process_time_ok c o s jbuf data U I (fun _ => S) L2 L1) as (o1 & d1 & E1 & I1 & _ & N1 & _ & Ld & Nd).
  exists o1, d1. splits; auto. eapply hu_time; [exact H|..|exact E1]; auto.
Qed.

(** *** Values and scale *)
Lemma normalised_range t n raw d : (forall i, 0 <= i < n -> (0 <= raw i)%R) -> is_normalised t n raw d ->
  (forall i, 0 <= i < n -> (0 <= d i)%R) /\ (t <> NormaliseNone -> forall i, 0 <= i < n -> (d i <= 1)%R).
Proof.
  intros P H. destruct t; cbn in H.
  - split; [|congruence]. intros i Hi. rewrite H; auto.
  - destruct H as [H|(A & m & Pm & H)].
    { split; [|intros _]; intros i Hi; destruct (H i Hi); lra. }
    assert (Q : forall i, 0 <= i < n -> (0 <= d i)%R).
    { intros i Hi. specialize (P i Hi). rewrite H in P by auto. apply (Rmult_le_reg_l m); auto. lra. }
    split; auto. intros _ i Hi. rewrite <- A. now apply rsum_term.
  - destruct H as [H|((_ & A) & m & Pm & H)].
    { split; [|intros _]; intros i Hi; destruct (H i Hi); lra. }
    split; [|intros _; exact A]. intros i Hi. specialize (P i Hi). rewrite H in P by auto. apply (Rmult_le_reg_l m); auto. lra.
Qed.

Lemma normalised_scale t n raw d1 d2 g : (0 < g)%R -> t <> NormaliseNone ->
  is_normalised t n raw d1 -> is_normalised t n (fun i => g * raw i)%R d2 -> forall i, 0 <= i < n -> d1 i = d2 i.
Proof.
  intros Pg Ht H1 H2 i Hi. destruct t; [congruence| |]; cbn in H1, H2.
  - destruct H1 as [H1|(S1 & m1 & P1 & H1)], H2 as [H2|(S2 & m2 & P2 & H2)].
    + now rewrite (proj2 (H1 i Hi)), (proj2 (H2 i Hi)).
    + exfalso. rewrite (rsum_zero n d2) in S2; [lra|]. intros k Hk. apply (Rmult_eq_reg_l m2); [|lra].
      rewrite <- H2 by auto. rewrite (proj1 (H1 k Hk)). ring.
    + exfalso. rewrite (rsum_zero n d1) in S1; [lra|]. intros k Hk. apply (Rmult_eq_reg_l (g * m1)).
      2: { apply Rgt_not_eq. apply Rmult_lt_0_compat; auto. } rewrite Rmult_assoc, <- H1 by auto. rewrite (proj1 (H2 k Hk)). ring.
    + assert (E : (g * m1 = m2)%R).
      { assert (X : (rsum n (fun k => g * m1 * d1 k) = rsum n (fun k => m2 * d2 k))%R).
        { apply rsum_ext. intros k Hk. rewrite <- H2 by auto. rewrite H1 by auto. ring. }
        rewrite !rsum_scal, S1, S2 in X. lra. }
      apply (Rmult_eq_reg_l m2); [|lra]. rewrite <- H2, <- E, H1 by auto. ring.
  - destruct H1 as [H1|(((k1 & K1 & S1) & B1) & m1 & P1 & H1)], H2 as [H2|(((k2 & K2 & S2) & B2) & m2 & P2 & H2)].
    + now rewrite (proj2 (H1 i Hi)), (proj2 (H2 i Hi)).
    + exfalso. specialize (H2 k2 K2). rewrite (proj1 (H1 k2 K2)), S2 in H2. lra.
    + exfalso. specialize (H1 k1 K1). pose proof (proj1 (H2 k1 K1)) as Z. rewrite H1, S1 in Z. nra.
    + assert (E : (g * m1 = m2)%R).
      { pose proof (H2 k1 K1) as X1. rewrite H1, S1 in X1 by auto. pose proof (B2 k1 K1) as Y1.
        pose proof (H2 k2 K2) as X2. rewrite H1, S2 in X2 by auto. pose proof (B1 k2 K2) as Y2.
        assert (m2 * d2 k1 <= m2)%R by (rewrite <- (Rmult_1_r m2) at 2; apply Rmult_le_compat_l; lra).
        assert (Pgm : (0 < g * m1)%R) by (apply Rmult_lt_0_compat; auto).
        assert (g * m1 * d1 k2 <= g * m1)%R by (rewrite <- (Rmult_1_r (g * m1)) at 2; apply Rmult_le_compat_l; lra). lra. }
      apply (Rmult_eq_reg_l m2); [|lra]. rewrite <- H2, <- E, H1 by auto. ring.
Qed.

Lemma pitch_class_scale b oct c n X g i :
  pitch_class b oct (chroma_bin c n (fun k => cmul (cre g) (X k))) i = (Rabs g * pitch_class b oct (chroma_bin c n X) i)%R.
Proof.
  unfold pitch_class. rewrite <- rsum_scal. apply rsum_ext. intros o Ho.
  rewrite <- cabs_re, <- cabs_mul. f_equal. unfold cq_bin. rewrite <- csum_scal. apply csum_ext. intros k Hk. ring.
Qed.

(** Results lie between 0 and 1 when normalised, and do not depend on the level of the input or on earlier frames. *)
Theorem chroma_level c o1 o2 s1 s2 re im re' im' g (n := g_size o1) : chroma_usable c -> chroma_uses c o1 -> chroma_uses c o2 -> g_size o2 = n ->
  scratch_for n s1 -> scratch_for n s2 -> n <= zlen re -> n <= zlen im -> n <= zlen re' -> n <= zlen im' -> g <> 0%R ->
  (forall i, 0 <= i < n -> zn 0%R re' i = (g * zn 0%R re i)%R /\ zn 0%R im' i = (g * zn 0%R im i)%R) ->
  exists p1 d1 p2 d2, process_freq o1 s1 re im = OK (p1, d1) /\ process_freq o2 s2 re' im' = OK (p2, d2) /\
    forall i, 0 <= i < h_bpo c ->
      (0 <= zn 0%R d1 i)%R /\ (h_norm c <> NormaliseNone -> (zn 0%R d1 i <= 1)%R) /\
      zn 0%R d2 i = match h_norm c with NormaliseNone => Rabs g * zn 0%R d1 i | _ => zn 0%R d1 i end%R.
Proof.
  intros U H1 H2 N2 S1 S2 L1 L2 L3 L4 Hg V.
  destruct (chroma_freq c o1 s1 re im U H1 S1 L1 L2) as (p1 & d1 & E1 & _ & _ & Ld1 & X1).
  destruct (chroma_freq c o2 s2 re' im' U H2) as (p2 & d2 & E2 & _ & _ & Ld2 & X2); try (rewrite N2; auto).
  fold n in X1. rewrite N2 in X2.
  exists p1, d1, p2, d2. splits; auto. intros i Hi.
  set (raw := pitch_class (h_bpo c) (octaves_of c) (chroma_bin c n (frame re im))) in *.
  assert (P : forall k, 0 <= k < h_bpo c -> (0 <= raw k)%R) by (intros; apply pitch_class_nonneg).
  destruct (normalised_range _ _ _ _ P X1) as [R1 R2].
  split; [auto|]. split; [intros; auto|].
  apply (is_normalised_ext _ _ _ (fun k => Rabs g * raw k)%R) in X2.
  2:{ intros k Hk. unfold raw. rewrite <- pitch_class_scale. unfold pitch_class. apply rsum_ext. intros oc Ho. f_equal.
      apply cq_bin_ext. intros b Hb. unfold frame. destruct (V b ltac:(lia)) as [-> ->]. apply cplx_eq; cbn; ring. }
  destruct (h_norm c) eqn:T.
  - cbn in X1, X2. rewrite X1, X2 by auto. reflexivity.
  - symmetry. apply (normalised_scale NormaliseUnitSum (h_bpo c) raw _ _ (Rabs g)); auto; try congruence. now apply Rabs_pos_lt.
  - symmetry. apply (normalised_scale NormaliseUnitMax (h_bpo c) raw _ _ (Rabs g)); auto; try congruence. now apply Rabs_pos_lt.
Qed.

(** The two ways in agree: samples give what the spectrum of the windowed, half-rotated frame gives. *)
Theorem chroma_ways_agree c o1 o2 s1 s2 jbuf data re im (n := g_size o1) : chroma_usable c -> chroma_uses c o1 -> chroma_uses c o2 -> g_size o2 = n ->
  scratch_for n s1 -> scratch_for n s2 -> zlen jbuf = n -> n <= zlen data -> n <= zlen re -> n <= zlen im ->
  (forall b, 0 <= b < n -> frame re im b = spectrum n (rotated n (windowed n (zn 0%R data))) b) ->
  exists p1 p2 d, process_time o1 s1 jbuf data = OK (p1, d) /\ process_freq o2 s2 re im = OK (p2, d).
Proof.
  intros U H1 H2 N2 S1 S2 L1 L2 L3 L4 V.
  destruct (chroma_time c o1 s1 jbuf data U H1 S1 L1 L2) as (p1 & d1 & E1 & _ & _ & Ld1 & X1).
  destruct (chroma_freq c o2 s2 re im U H2) as (p2 & d2 & E2 & _ & _ & Ld2 & X2); try (rewrite N2; auto).
  fold n in X1. rewrite N2 in X2.
  exists p1, p2, d1. split; auto. rewrite E2. do 2 f_equal. apply (zn_ext 0%R); [lia|]. intros i Hi.
  set (raw := pitch_class (h_bpo c) (octaves_of c) (chroma_bin c n (spectrum n (rotated n (windowed n (zn 0%R data)))))) in *.
  apply (is_normalised_ext _ _ _ raw) in X2.
  2:{ intros k Hk. unfold raw, pitch_class. apply rsum_ext. intros oc Ho. f_equal. apply cq_bin_ext. intros b Hb. apply V. lia. }
  destruct (h_norm c) eqn:T.
  - cbn in X1, X2. rewrite X1, X2 by lia. reflexivity.
  - symmetry. apply (normalised_scale NormaliseUnitSum (h_bpo c) raw _ _ 1%R); auto; try congruence; try lra; try lia.
    eapply is_normalised_ext; [|exact X2]. intros; cbv beta; ring.
  - symmetry. apply (normalised_scale NormaliseUnitMax (h_bpo c) raw _ _ 1%R); auto; try congruence; try lra; try lia.
    eapply is_normalised_ext; [|exact X2]. intros; cbv beta; ring.
Qed.

(** Pitch classes in terms of the samples: the sum over octaves of the magnitude of the correlation of the
    (time-reversed) windowed frame with the filter of the bin, up to the constant part of the frame and what
    the threshold drops. *)
Theorem chroma_meaning c n x i (X := spectrum n (rotated n (windowed n x))) : half_ok n ->
  (Rabs (pitch_class (h_bpo c) (octaves_of c) (chroma_bin c n X) i -
         rsum (octaves_of c) (fun o => cabs (csum n (fun t =>
           cmul (cconj (atom (h_fs c) (h_min c) (h_bpo c) n (o * h_bpo c + i) t)) (windowed n x ((- t) mod n))))))
   <= rsum (octaves_of c) (fun o =>
        cabs (kernel_bin (h_fs c) (h_min c) (h_bpo c) n (o * h_bpo c + i) 0) * cabs (X 0%Z) / IZR n +
        Rabs (h_thresh c) / IZR n * rsum (n - 1) (fun b => cabs (X (b + 1)%Z))))%R.
Proof.
  intros Hn. assert (Pn : 1 <= n) by (destruct Hn; lia). assert (Pr : (0 < IZR n)%R) by (apply IZR_lt; lia).
  unfold pitch_class. rewrite <- rsum_minus. eapply Rle_trans; [apply rsum_abs|]. apply rsum_le. intros o Ho.
  set (k := o * h_bpo c + i).
  destruct (cq_time (h_fs c) (h_min c) (h_bpo c) (h_thresh c) n k (rotated n (windowed n x)) Pn) as (err & E & B).
  fold X in E, B. rewrite E, rotated_correlation by auto.
  set (C := csum n _). set (D := cmul (cre (1 / IZR n)) _).
  assert (T : forall a b, (Rabs (cabs (cadd a b) - cabs a) <= cabs b)%R).
  { intros a b. pose proof (cabs_triang a b). pose proof (cabs_triang (cadd a b) (copp b)) as T2.
    assert (E1 : cadd (cadd a b) (copp b) = a) by ring. rewrite E1 in T2.
    assert (E2 : cabs (copp b) = cabs b) by (unfold cabs; f_equal; cbn; ring). rewrite E2 in T2.
    apply Rabs_le. lra. }
  replace (cadd (csub C D) err) with (cadd C (cadd (copp D) err)) by ring.
  eapply Rle_trans; [apply T|]. eapply Rle_trans; [apply cabs_triang|].
  assert (E2 : cabs (copp D) = cabs D) by (unfold cabs; f_equal; cbn; ring). rewrite E2.
  apply Rplus_le_compat; [|exact B]. unfold D. rewrite !cabs_mul, cabs_re, cabs_conj.
  rewrite Rabs_pos_eq; [|apply Rlt_le, Rdiv_lt_0_compat; lra]. right. field. lra.
Qed.
