(** Chromagrams. *)
From Coq Require Import List ZArith Reals Lia Lra Bool.
From Verif.Base Require Import Imp Sums RealOps Loops.
From Verif.Maths Require Import IntModel IntSpec IntProofs RealModel RealSpec RealProofs.
From Verif.Windows Require Import WindowModel WindowSpec WindowProofs.
From Verif.Fft Require Import Cplx FftModel FftSpec FftProofs FftrModel FftResults.
From Verif.Chroma Require Import CqModel CqSpec CqLoops CqProofs CqTime CqResults ChromaModel ChromaSpec.
Import ListNotations.
Open Scope Z_scope.

Lemma all_or_ex n (P : Z -> Prop) : (forall i, P i \/ ~ P i) -> (forall i, 0 <= i < n -> P i) \/ exists i, 0 <= i < n /\ ~ P i.
Proof.
  intros D. destruct (Z.le_gt_cases n 0) as [H|H]; [left; intros; lia|].
  pattern n. apply rsum_ind; [left; intros; lia| |lia].
  intros m Hm [IH|(i & Hi & N)]; [|right; exists i; split; auto; lia].
  destruct (D m) as [A|A]; [left|right; exists m; split; auto; lia].
  intros i Hi. destruct (Z.eq_dec i m) as [->|]; auto. apply IH. lia.
Qed.

(** *** Normalisation of values that are not negative *)
Lemma normalise_is t d raw n : 1 <= n -> n = zlen d ->
  (forall i, 0 <= i < n -> zn 0%R d i = raw i) -> (forall i, 0 <= i < n -> (0 <= raw i)%R) ->
  exists d', normalise d n t = OK d' /\ zlen d' = zlen d /\ is_normalised t n raw (zn 0%R d').
Proof.
  intros Hn Ld V P. assert (Ln : 0 <= n <= zlen d) by lia. destruct t.
  - exists d. splits; auto.
  - destruct (normalise_sum d n Ln) as (d' & E & H0 & H1). exists d'. split; auto.
    rewrite (rsum_ext n (Rn d) raw) in H0, H1 by auto. destruct (Req_dec (rsum n raw) 0) as [Z0|N0].
    + rewrite H0 by auto. split; auto. left. intros i Hi. rewrite V by auto.
      assert (raw i = 0%R); [|auto]. pose proof (rsum_term n raw i P Hi). specialize (P i Hi). lra.
    + destruct (H1 N0) as [S1 [L D]]. split; auto. right. split; auto. exists (rsum n raw).
      pose proof (rsum_nonneg n raw P). split; [lra|]. intros i Hi. rewrite D by lia. zcase. rewrite V by auto. field. auto.
  - destruct (normalise_max d n Ln) as (d' & E & H0 & H1). exists d'. split; auto.
    destruct (Req_dec (rsum n raw) 0) as [Z0|N0].
    + assert (A : forall i, 0 <= i < n -> raw i = 0%R).
      { intros i Hi. pose proof (rsum_term n raw i P Hi). specialize (P i Hi). lra. }
      rewrite H0 by (intros; rewrite V by auto; auto). split; auto. left. intros i Hi. rewrite V by auto. auto.
    + destruct H1 as [M (m & Pm & M1 & [L D])].
      { destruct (Z.le_gt_cases n 0); [lia|].
        destruct (all_or_ex n (fun i => zn 0%R d i = 0%R)) as [A|A]; auto.
        - intros i. apply Req_dec.
        - exfalso. apply N0. apply rsum_zero. intros i Hi. rewrite <- V by auto. auto. }
      split; auto. right. split.
      * assert (Q : forall i, 0 <= i < n -> Rabs (zn 0%R d' i) = zn 0%R d' i).
        { intros i Hi. apply Rabs_pos_eq. rewrite D by lia. zcase. rewrite V by auto.
          apply Rdiv_le_0_compat; auto. }
        destruct M as ((i & Hi & Ei) & Mx). split; [exists i; split; auto; rewrite <- Q; auto|].
        intros k Hk. rewrite <- Q by auto. auto.
      * exists m. split; auto. intros i Hi. rewrite D by lia. zcase. rewrite V by auto. field. lra.
Qed.

(** *** Octaves *)
Definition octaves_of (c : chromaconfig) : Z := Zceil (ln (h_max c / h_min c) / ln 2).

Lemma ln2_pos : (0 < ln 2)%R.
Proof. rewrite <- ln_1. apply ln_increasing; lra. Qed.

(** With whole octaves the number of bins is exact. *)
Lemma chroma_bins c : 1 <= h_bpo c -> (0 < h_min c)%R ->
  Zceil (IZR (c_bpo (cq_config c)) * ln (c_max (cq_config c) / c_min (cq_config c)) / ln 2) = h_bpo c * octaves_of c.
Proof.
  intros Hb Hf. cbn [cq_config c_bpo c_max c_min]. fold (octaves_of c). set (k := octaves_of c).
  replace (h_min c * Rpower 2 (IZR k) / h_min c)%R with (Rpower 2 (IZR k)) by (field; lra).
  unfold Rpower. rewrite ln_exp. pose proof ln2_pos.
  replace (IZR (h_bpo c) * (IZR k * ln 2) / ln 2)%R with (IZR (h_bpo c * k)).
  - unfold Zceil. rewrite <- opp_IZR, Zfloor_IZR. lia.
  - rewrite mult_IZR. field. lra.
Qed.

Definition chroma_usable (c : chromaconfig) : Prop := 1 <= h_bpo c /\ (0 < h_fs c)%R /\ (0 < h_min c)%R.
Lemma chroma_cq_usable c : chroma_usable c -> usable (cq_config c).
Proof. auto. Qed.

(** *** Objects *)
Record chroma_inv (c : chromaconfig) (o : chroma) : Prop := {
  ci_bpo : g_bpo o = h_bpo c; ci_norm : g_norm o = h_norm c; ci_data : zlen (g_data o) = h_bpo c;
  ci_cq : cq_uses (cq_config c) (g_generated o) (g_cq o);
  ci_uk : g_uk o = q_uk (g_cq o); ci_size : g_size o = q_len (g_cq o); ci_hop : g_hop o = q_hop (g_cq o);
  ci_even : 2 <= g_size o /\ g_size o = 2 * (g_size o / 2);
  ci_fft : fftreal_uses (g_size o) (g_fft o);
  ci_re : zlen (g_re o) = g_size o; ci_im : zlen (g_im o) = g_size o;
  ci_cqre : zlen (g_cqre o) = g_uk o; ci_cqim : zlen (g_cqim o) = g_uk o;
  ci_win : match g_window o with None => True | Some w => w = ztab (g_size o) (hamming (g_size o)) /\ zlen (g_buf o) = g_size o end
}.

Definition fresh_for (c : chromaconfig) (n uk : Z) (f : fresh) : Prop :=
  zlen (f_data f) = h_bpo c /\ zlen (f_cq f) = 2 * uk /\ zlen (f_1 f) = n / 2 /\ zlen (f_2 f) = n / 2 /\ zlen (f_c f) = n /\
  zlen (f_re f) = n /\ zlen (f_im f) = n /\ zlen (f_cqre f) = uk /\ zlen (f_cqim f) = uk.
Definition scratch_for (n : Z) (s : scratch) : Prop :=
  zlen (s_wr s) = n /\ zlen (s_wi s) = n /\ zlen (s_tr s) = n /\ zlen (s_ti s) = n /\ zlen (s_ji s) = n /\ zlen (s_jo s) = n.

Lemma chroma_uk c b q : chroma_usable c -> cq_uses (cq_config c) b q -> q_uk q = h_bpo c * octaves_of c /\ 0 <= octaves_of c.
Proof.
  intros U H. destruct (cq_uses_inv _ _ _ (chroma_cq_usable c U) H) as [M _]. destruct U as (U1 & U2 & U3).
  pose proof (md_uk _ _ M) as A. rewrite chroma_bins in A by auto. pose proof (md_uk0 _ _ M). split; auto. nia.
Qed.
Lemma chroma_len c b q : chroma_usable c -> cq_uses (cq_config c) b q -> 1 <= q_len q <= 2 ^ 30 /\ half_ok (q_len q).
Proof.
  intros U H. destruct (cq_uses_inv _ _ _ (chroma_cq_usable c U) H) as [M _].
  destruct (made_len _ _ (chroma_cq_usable c U) M) as (A & B & _). auto.
Qed.

Lemma chroma_new_inv c f o : chroma_usable c -> chroma_new c f = OK o -> fresh_for c (g_size o) (g_uk o) f ->
  chroma_inv c o /\ g_generated o = false.
Proof.
  intros U E (F1 & F2 & F3 & F4 & F5 & F6 & F7 & F8 & F9). unfold chroma_new in E.
  apply bind_OK in E as (q & Eq & E). apply bind_OK in E as (t & Et & E). injection E as <-.
  cbn [g_size g_uk] in *. split; [|reflexivity].
  assert (Q : cq_uses (cq_config c) false q) by (eapply cu_new; eauto).
  destruct (chroma_len c false q U Q) as (Hl & Hh).
  assert (Ev : 2 <= q_len q /\ q_len q = 2 * (q_len q / 2)).
  { destruct Hh as [H1|]; auto. exfalso. rewrite H1 in Et. unfold fftreal_new in Et. cbn in Et. discriminate. }
  constructor; cbn [g_bpo g_norm g_data g_cq g_generated g_uk g_size g_hop g_fft g_re g_im g_cqre g_cqim g_window g_buf]; auto.
  eapply ru_new; [| | |exact Et]; auto.
Qed.

Lemma generate_ok c o s : chroma_usable c -> chroma_inv c o -> (g_generated o = false -> scratch_for (g_size o) s) ->
  exists o', generate o s = OK o' /\ chroma_inv c o' /\ g_generated o' = true /\ g_size o' = g_size o /\ g_uk o' = g_uk o.
Proof.
  intros U I S. unfold generate. destruct (g_generated o) eqn:G; [exists o; splits; auto|].
  destruct (S eq_refl) as (S1 & S2 & S3 & S4 & S5 & S6). destruct I as [I1 I2 I3 I4 I5 I6 I7 I8 I9 I10 I11 I12 I13 I14].
  destruct (cq_kernel_made (cq_config c) (g_generated o) (g_cq o) (s_wr s) (s_wi s) (s_tr s) (s_ti s) (s_ji s) (s_jo s))
    as (q & E & Uq); auto; try congruence.
  rewrite E. cbn [bind]. eexists; split; [reflexivity|]. split; [|splits; auto].
  destruct (cq_uses_inv _ _ _ (chroma_cq_usable c U) I4) as [M _].
  destruct (sparsekernel_ok (cq_config c) (g_cq o) (s_wr s) (s_wi s) (s_tr s) (s_ti s) (s_ji s) (s_jo s)) as (q' & k & E' & M' & N1 & N2 & _);
    auto; try congruence. rewrite E in E'. injection E' as <-.
  constructor; cbn [g_bpo g_norm g_data g_cq g_generated g_uk g_size g_hop g_fft g_re g_im g_cqre g_cqim g_window g_buf]; auto; try congruence.
  rewrite I7, (md_hop _ _ M), (md_hop _ _ M'). congruence.
Qed.

(** *** The folding of octaves *)
Lemma fold_octaves b oct cre cim d : 1 <= b -> 0 <= oct -> b * oct <= zlen cre -> b * oct <= zlen cim -> zlen d = b ->
  (forall i, 0 <= i < b -> zn 0%R d i = 0%R) ->
  exists d', for_up 0 oct (fun octave d => for_up 0 b (fun i d =>
      x <- aget cre (octave * b + i) ;; y <- aget cim (octave * b + i) ;; v <- aget d i ;; aset d i (v + kabs x y)%R) d) d = OK d' /\
    zlen d' = b /\ forall i, 0 <= i < b -> zn 0%R d' i = pitch_class b oct (frame cre cim) i.
Proof.
  intros Hb Ho L1 L2 Ld Z0.
  match goal with |- context [for_up 0 oct ?B d] =>
  destruct (for_up_inv (fun k s => zlen s = b /\ forall i, 0 <= i < b -> zn 0%R s i = pitch_class b k (frame cre cim) i) 0 oct B d) as (s & E & L & V) end.
  - lia.
  - split; auto.
  - intros k s Hk (L & V).
    match goal with |- context [for_up 0 b ?B s] =>
    destruct (for_up_inv (fun j s' => zlen s' = b /\ forall i, 0 <= i < b -> zn 0%R s' i = pitch_class b (if i <? j then k + 1 else k) (frame cre cim) i) 0 b B s) as (s' & E & L' & V') end.
    + lia.
    + split; auto. intros i Hi. zcase. auto.
    + intros j s' Hj (L' & V').
      assert (k * b + j < b * oct) by nia. assert (0 <= k * b) by nia.
      repeat (rewrite (aget_OK 0%R) by lia; cbn [bind]). rewrite aset_OK by lia. eexists; split; [reflexivity|]. split; [zl; lia|].
      intros i Hi. rewrite zn_upd by lia. destruct (Z.eqb_spec i j) as [->|].
      * destruct (Z.eqb_spec j j); [|congruence]. destruct (Z.ltb_spec j (j + 1)); [|lia]. rewrite V' by lia.
        destruct (Z.ltb_spec j j); [lia|]. unfold pitch_class. rewrite rsum_S by lia. f_equal.
      * rewrite V' by lia. zcase; try lia; reflexivity.
    + exists s'. split; [exact E|]. split; auto. intros i Hi. rewrite V' by auto. zcase. reflexivity.
  - exists s. auto.
Qed.

Lemma pitch_class_nonneg b oct f i : (0 <= pitch_class b oct f i)%R.
Proof. apply rsum_nonneg. intros. apply cabs_nonneg. Qed.

Notation chroma_bin c n X := (cq_bin (h_fs c) (h_min c) (h_bpo c) (h_thresh c) n X).

Lemma process_freq_ok c o s re im (n := g_size o) : chroma_usable c -> chroma_inv c o -> (g_generated o = false -> scratch_for n s) ->
  n <= zlen re -> n <= zlen im ->
  exists o' d, process_freq o s re im = OK (o', d) /\ chroma_inv c o' /\ g_generated o' = true /\ g_size o' = n /\ g_uk o' = g_uk o /\
    zlen d = h_bpo c /\
    is_normalised (h_norm c) (h_bpo c) (pitch_class (h_bpo c) (octaves_of c) (chroma_bin c n (frame re im))) (zn 0%R d).
Proof.
  intros U I S L1 L2. unfold process_freq.
  destruct (generate_ok c o s U I S) as (o1 & E1 & I1 & G1 & N1 & K1). rewrite E1. cbn [bind]. clear S I E1. fold n in N1.
  pose proof U as (Ub & Us & Uf).
  destruct I1 as [A1 A2 A3 A4 A5 A6 A7 A8 A9 A10 A11 A12 A13 A14].
  pose proof (for_up_set (g_bpo o1) (fun _ => OK 0%R) (fun _ => 0%R) (g_data o1) ltac:(lia) (fun _ _ => eq_refl)) as EZ.
  cbn [bind] in EZ. rewrite EZ. cbn [bind]. rewrite skipn_zlen, app_nil_r by lia. rewrite A1.
  rewrite G1 in A4. destruct (chroma_uk c true (g_cq o1) U A4) as (Hk & Ho).
  destruct (cq_product (cq_config c) (g_cq o1) re im (g_cqre o1) (g_cqim o1) U A4) as (cr & ci & E2 & (L3 & P3 & _) & (L4 & P4 & _)); try lia.
  rewrite E2. cbn [bind].
  rewrite A5, Hk. rewrite Z.quot_div_nonneg by nia. rewrite Z.mul_comm, Z.div_mul by lia.
  destruct (fold_octaves (h_bpo c) (octaves_of c) cr ci (ztab (h_bpo c) (fun _ => 0%R))) as (d & E3 & Ld & Vd); auto; try (zl; lia).
  { intros i Hi. now rewrite zn_ztab by lia. }
  rewrite E3. cbn [bind].
  destruct (normalise_is (g_norm o1) d (pitch_class (h_bpo c) (octaves_of c) (chroma_bin c n (frame re im))) (h_bpo c)) as (d' & E4 & L5 & N5); auto.
  { intros i Hi. rewrite Vd by auto. unfold pitch_class. apply rsum_ext. intros k Hk1. f_equal. unfold frame at 1.
    assert (0 <= k * h_bpo c + i < q_uk (g_cq o1)) by nia.
    rewrite P3, P4 by auto. rewrite <- surjective_pairing. rewrite <- A6, N1. reflexivity. }
  { intros. apply pitch_class_nonneg. }
  rewrite E4. cbn [bind]. do 2 eexists; split; [reflexivity|].
  split; [|splits; auto; try congruence; try lia].
  2: { cbn [g_uk]. lia. }
  constructor; cbn [g_bpo g_norm g_data g_cq g_generated g_uk g_size g_hop g_fft g_re g_im g_cqre g_cqim g_window g_buf]; auto; try congruence; try lia.
Qed.
