(** From samples to segments: what a client of the segmenter can rely on. *)
From Coq Require Import List ZArith QArith Qreals Reals Lia Lra Bool.
From Verif.Base Require Import Imp Sums RealOps Matrix.
From Verif.Maths Require Import IntModel IntSpec IntProofs.
From Verif.Rate Require Import Df2tSpec Df2tProofs DecimatorModel DecimatorSpec.
From Verif.Fft Require Import Cplx FftSpec FftProofs.
From Verif.Chroma Require Import CqSpec CqTime CqResults.
From Verif.Mfcc Require Import MfccSpec.
From Verif.Seg Require Import MeltSpec SegModel SegSpec SegResults SegWhole ExtractModel ExtractSpec ExtractProofs ExtractResults.
Import ListNotations.
Open Scope Z_scope.

Theorem initialise_starts p st o mem rate : sane p -> life p st o -> clean p st rate -> 1 <= rate -> starts p rate ->
  exists o', initialise o mem rate = OK o' /\ life p (Some (rate, [])) o' /\
    t_features (u_seg o') = t_features (u_seg o) /\ t_result (u_seg o') = t_result (u_seg o).
Proof.
  intros S L C Hr St. pose proof (life_inv p st o S L) as I.
  assert (K : exists o', initialise o mem rate = OK o' /\ t_features (u_seg o') = t_features (u_seg o) /\ t_result (u_seg o') = t_result (u_seg o)).
  { unfold starts in St. destruct (p_type p) eqn:T.
    - destruct (initialise_unknown p st o mem rate I Hr T) as (o' & E & _ & F & G). eauto.
    - destruct (initialise_cq p st o mem rate S I C Hr) as [K1 K2]; auto. destruct (K2 St) as (o' & E). destruct (K1 o' E) as (_ & F & G). eauto.
    - destruct (initialise_cq p st o mem rate S I C Hr) as [K1 K2]; auto. destruct (K2 St) as (o' & E). destruct (K1 o' E) as (_ & F & G). eauto.
    - destruct (initialise_mfcc p st o mem rate S I C Hr T) as (o' & E & _ & F & G). eauto. }
  destruct K as (o' & E & F & G). exists o'. splits; auto. eapply li_init; eauto.
Qed.

Theorem extract_adds p rate past o mem block : sane p -> p_type p <> Unknown -> life p (Some (rate, past)) o -> block_ok p rate block ->
  exists o' v, extract o mem block = OK o' /\ life p (Some (rate, past ++ block)) o' /\
    t_features (u_seg o') = t_features (u_seg o) ++ [v] /\ t_result (u_seg o') = t_result (u_seg o) /\ is_features p rate past block v.
Proof.
  intros S T L B. destruct (extract_ok p rate past o mem block S (life_inv p _ o S L) T B) as (o' & v & E & _ & F & G & V).
  exists o', v. splits; auto. eapply li_extract; eauto.
Qed.
(** Longer blocks where the rate is reduced: only a window's length is filtered; the rest of the samples analysed is
    whatever the memory held. *)
Theorem extract_overlong p rate past o mem block f : sane p -> p_type p <> Unknown -> life p (Some (rate, past)) o ->
  is_factor (internal_rate p) rate f -> f <> 1 -> window_samples p rate <= zlen block ->
  exists o' v x, extract o mem block = OK o' /\ t_features (u_seg o') = t_features (u_seg o) ++ [v] /\
    block_out f (window_samples p rate) past block (mem 0) x /\ features_of p (rate / f) x v.
Proof.
  intros S T L F N B. destruct (extract_long p rate past o mem block f S (life_inv p _ o S L) T F N B) as (o' & v & x & E & _ & H). exists o', v, x. tauto.
Qed.

(** Blocks that are too short, and blocks for an object that is not initialised (or was not since it segmented), are ignored. *)
Theorem extract_short p rate past o mem block : sane p -> life p (Some (rate, past)) o -> zlen block < window_samples p rate -> extract o mem block = OK o.
Proof. intros S L H. eapply short_extract; eauto using life_inv. Qed.
Theorem extract_closed p o mem block : sane p -> life p None o -> extract o mem block = OK o.
Proof.
  intros S L. destruct (life_inv p None o S L) as (_ & _ & _ & (C1 & C2 & C3)). unfold extract, extract_constq, extract_mfcc.
  rewrite C1, C2. destruct (t_type (u_seg o)); reflexivity.
Qed.

(** *** The features are determined *)
Lemma is_decimated_unique f past block x x' : is_decimated f past block x -> is_decimated f past block x' -> x = x'.
Proof.
  unfold is_decimated. destruct (f =? 1); [congruence|]. intros (ys & A & B & C) (ys' & A' & B' & C').
  destruct (coefficients f) as [b a]. rewrite (response_unique _ _ _ _ _ _ _ _ _ A' A) in C'.
  apply (zn_ext 0%R); [congruence|]. intros i Hi. rewrite C, C' by lia. reflexivity.
Qed.
Lemma frame_size_unique p fs n n' : frame_size p fs n -> frame_size p fs n' -> n = n'.
Proof. unfold frame_size. destruct (p_type p); intros A B; try congruence; exact (next_power_unique _ _ _ A B). Qed.

Lemma frame_size_ge p rate f n : sane p -> 1 <= rate -> starts p rate -> is_factor (internal_rate p) rate f -> frame_size p (rate / f) n -> p_type p <> Unknown -> 2 <= n.
Proof.
  unfold frame_size, starts, kernel_fits, internal_rate. intros S Hr K F H T. destruct (p_type p); try congruence; [| |lia];
    destruct (K f F) as (B & _); destruct H as (_ & H & _); lia.
Qed.

Theorem is_features_unique p rate past block v v' : sane p -> 1 <= rate -> starts p rate -> p_type p <> Unknown ->
  is_features p rate past block v -> is_features p rate past block v' -> v = v'.
Proof.
  intros S Hr K T (f & x & F & D & n & c & N & C & L & V) (f' & x' & F' & D' & n' & c' & N' & C' & L' & V').
  assert (f' = f) by exact (is_factor_unique _ _ _ _ F' F). subst f'.
  assert (x' = x) by exact (is_decimated_unique _ _ _ _ _ D' D). subst x'.
  assert (n' = n) by exact (frame_size_unique _ _ _ _ N' N). subst n'.
  assert (c' = c) by exact (frame_count_unique _ _ _ _ (frame_size_ge p rate f n S Hr K F N T) C' C). subst c'.
  apply (zn_ext 0%R); [congruence|]. intros i Hi. rewrite V, V' by lia. reflexivity.
Qed.

(** *** Several blocks *)
Fixpoint extract_all (o : melter) (calls : list ((Z -> Z -> R) * list R)) : res melter :=
  match calls with
  | [] => OK o
  | (mem, block) :: calls => o <- extract o mem block ;; extract_all o calls
  end.
Fixpoint all_features (p : params) (rate : Z) (past : list R) (calls : list ((Z -> Z -> R) * list R)) (vs : list (list R)) : Prop :=
  match calls, vs with
  | [], [] => True
  | (_, block) :: calls, v :: vs => is_features p rate past block v /\ all_features p rate (past ++ block) calls vs
  | _, _ => False
  end.

Theorem extract_all_adds p rate calls : sane p -> p_type p <> Unknown -> forall past o, life p (Some (rate, past)) o ->
  Forall (fun c => block_ok p rate (snd c)) calls ->
  exists o' vs, extract_all o calls = OK o' /\ life p (Some (rate, past ++ concat (map snd calls))) o' /\
    t_features (u_seg o') = t_features (u_seg o) ++ vs /\ t_result (u_seg o') = t_result (u_seg o) /\ all_features p rate past calls vs.
Proof.
  intros S T. induction calls as [|[mem block] calls IH]; intros past o L B; cbn [extract_all map snd concat].
  - exists o, []. rewrite !app_nil_r. cbn. splits; auto.
  - apply Forall_cons_iff in B as [B1 B2]. cbn [snd] in B1.
    destruct (extract_adds p rate past o mem block S T L B1) as (o1 & v & E1 & L1 & F1 & G1 & V1). rewrite E1. cbn [bind].
    destruct (IH (past ++ block) o1 L1 B2) as (o' & vs & E & L' & F & G & V). exists o', (v :: vs).
    rewrite app_assoc. splits; auto.
    + rewrite F, F1, <- app_assoc. reflexivity.
    + congruence.
    + cbn. auto.
Qed.

Lemma all_features_len p rate calls : forall past vs, all_features p rate past calls vs -> zlen vs = zlen calls.
Proof.
  induction calls as [|[m b] calls IH]; intros past [|v vs] H; cbn in H; try tauto. destruct H as [_ H]. apply IH in H. zl. lia.
Qed.
Lemma all_features_size p rate calls : forall past vs, all_features p rate past calls vs -> Forall (fun v => zlen v = feature_size p) vs.
Proof.
  induction calls as [|[m b] calls IH]; intros past [|v vs] H; cbn in H; try tauto; constructor.
  - destruct H as [(f & x & _ & _ & n & c & _ & _ & L & _) _]. exact L.
  - destruct H as [_ H]. exact (IH _ _ H).
Qed.

(** *** From samples to segments *)
Definition hop_samples (p : params) (rate : Z) : Z := Zfloor (p_hop p * IZR rate + 1 / 1000).
Definition segmentable (p : params) (rate frames : Z) : Prop :=
  1 <= p_states p /\ 1 <= p_clusters p /\ 0 <= p_hist p /\ 2 * (p_hist p / 2) + 1 <= frames /\ p_hist p <= frames /\ 2 <= frames /\
  0 < hop_samples p rate /\ frames * hop_samples p rate <= INT_MAX.
(** Principal components are computed for constant-Q features only, 20 of them. *)
Definition pca_ok (p : params) (pca : list (list R) -> Z -> Z -> Z -> res (list (list R))) (frames : Z) : Prop :=
  p_type p = ConstQ -> 20 <= feature_size p /\
    forall f, shape frames (feature_size p + 1) f -> exists f', pca f frames (feature_size p) 20 = OK f' /\ shape frames (feature_size p + 1) f'.

Section Pipeline.
  Variables (junk : R) (junkZ : Z) (rnd1 rnd2 : Z -> R) (sfmin : R).
  Variable pca : list (list R) -> Z -> Z -> Z -> res (list (list R)).
  Hypothesis R1 : forall i, (0 <= rnd1 i <= 1)%R.
  Hypothesis R2 : forall i, (0 <= rnd2 i)%R.

  Definition analyse (o : melter) (mem : Z -> Z -> R) (rate : Z) (calls : list ((Z -> Z -> R) * list R)) : res melter :=
    o <- initialise o mem rate ;; o <- extract_all o calls ;; melter_segment junk junkZ rnd1 rnd2 sfmin pca o.

  Theorem analysis_segments p o mem rate calls : sane p -> p_type p <> Unknown -> 1 <= rate -> starts p rate ->
    life p None o -> t_features (u_seg o) = [] -> Forall (fun c => block_ok p rate (snd c)) calls ->
    segmentable p rate (zlen calls) -> pca_ok p pca (zlen calls) ->
    exists o' segs c, analyse o mem rate calls = OK o' /\ life p None o' /\ t_features (u_seg o') = [] /\
      t_result (u_seg o') = Segmentation (p_clusters p) rate segs /\
      clustering (zlen calls) (p_states p) (p_hist p) (p_clusters p) (p_limit p) c /\
      is_segmentation (hop_samples p rate) c 0 (zlen calls) segs.
  Proof.
    intros S T Hr St L F0 B Sg Pc. unfold analyse.
    destruct (initialise_starts p None o mem rate S L I Hr St) as (o1 & E1 & L1 & F1 & _). rewrite E1. cbn [bind].
    destruct (extract_all_adds p rate calls S T [] o1 L1 B) as (o2 & vs & E2 & L2 & F2 & _ & V). rewrite E2. cbn [bind].
    rewrite F1, F0 in F2. cbn [app] in F2.
    pose proof (all_features_len _ _ _ _ _ V) as Lv. pose proof (all_features_size _ _ _ _ _ V) as Sv.
    destruct (life_inv p _ o2 S L2) as ((A1 & A2 & A3 & A4 & A5 & A6 & A7 & A8 & A9 & A10) & _ & _ & (_ & Rt & Nc & _)). specialize (Nc T).
    assert (Hp : get_hopsize (u_seg o2) = hop_samples p rate) by (unfold get_hopsize, hop_samples; now rewrite A5, Rt).
    destruct Sg as (G1 & G2 & G3 & G4 & G5 & G6 & G7 & G8).
    assert (Sz : forall i, 0 <= i < zlen vs -> zlen (zn [] vs i) = feature_size p).
    { intros i Hi. rewrite Forall_forall in Sv. apply Sv. unfold zn. destruct (Z.ltb_spec i 0); [lia|]. apply nth_In. unfold zlen in Hi. lia. }
    destruct (segment_ok junk junkZ rnd1 rnd2 sfmin pca R1 R2 (u_seg o2)) as (segs & c & E3 & C & G).
    - unfold settings_ok. rewrite F2, A7, A8, A9, Hp, Lv, Z.quot_div_nonneg by lia. splits; auto; lia.
    - unfold features_ok. rewrite A4, F2, Nc, A6. destruct (p_type p) eqn:Ty; [congruence| | |].
      + destruct (Pc Ty) as (P1 & P2). rewrite Lv in *. splits; auto. intros i Hi. rewrite Sz by lia. lia.
      + destruct S as (S1 & _). splits; auto; [|intros i Hi; rewrite Sz by lia; lia].
        rewrite <- (Sz 0) by lia. apply zlen_nonneg.
      + splits; [rewrite <- (Sz 0) by lia; apply zlen_nonneg|rewrite Sz by lia; unfold feature_size; rewrite Ty; lia|rewrite Sz by lia; lia|intros i Hi; rewrite Sz by lia; lia].
    - assert (E4 : melter_segment junk junkZ rnd1 rnd2 sfmin pca o2 =
        OK (Melter (segmented (u_seg o2) (Segmentation (t_clusters (u_seg o2)) (t_rate (u_seg o2)) segs)) (u_secs o2) (u_fmin o2) (u_fmax o2) None None None (u_fft o2) (u_window o2))).
      { unfold melter_segment. rewrite E3. reflexivity. }
      eexists _, segs, c. split; [exact E4|]. split; [eapply li_segment; [exact L2|exact E4]|].
      cbn [u_seg segmented t_features t_result]. rewrite A8, Rt, <- Lv. rewrite F2, A7, A8, A9, A10 in C. rewrite F2, Hp in G. splits; auto.
  Qed.
End Pipeline.
