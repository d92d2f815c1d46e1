(** Feature extraction as a client sees it. *)
From Coq Require Import List ZArith QArith Qreals Reals Lia Lra Bool.
From Verif.Base Require Import Imp Sums RealOps Loops.
From Verif.Maths Require Import IntModel IntSpec IntProofs.
From Verif.Rate Require Import Df2tSpec Df2tProofs DecimatorModel DecimatorSpec DecimatorProofs.
From Verif.Windows Require Import WindowModel WindowSpec WindowProofs.
From Verif.Fft Require Import Cplx FftModel FftSpec FftProofs FftrModel FftResults.
From Verif.Chroma Require Import CqModel CqSpec CqLoops CqProofs CqTime CqResults.
From Verif.Mfcc Require Import MfccModel MfccSpec MfccProofs.
From Verif.Seg Require Import SegModel SegSpec SegWhole ExtractModel ExtractSpec ExtractProofs.
Import ListNotations.
Open Scope Z_scope.

(** Parameters that make sense. *)
Definition sane (p : params) : Prop := 1 <= p_bins p /\ 1 <= p_fmin p /\ (0 <= p_window p)%R.

(** Objects used by a client; [Some (rate, past)]: initialised for [rate], then given the samples [past]. *)
Inductive life (p : params) : option (Z * list R) -> melter -> Prop :=
| li_new rate nc g : life p None (melter_new p rate nc g)
| li_init st mem rate o o' : life p st o -> 1 <= rate ->
    (match st with None => True | Some (r, _) => is_factor (internal_rate p) r 1 \/ ~ is_factor (internal_rate p) rate 1 end) ->
    initialise o mem rate = OK o' -> life p (Some (rate, [])) o'
| li_extract mem rate past block o o' : life p (Some (rate, past)) o -> block_ok p rate block -> extract o mem block = OK o' ->
    life p (Some (rate, past ++ block)) o'
| li_segment junk junkZ rnd1 rnd2 sfmin pca st o o' : life p st o -> melter_segment junk junkZ rnd1 rnd2 sfmin pca o = OK o' -> life p None o'.

Definition same_settings (p : params) (o : melter) : Prop :=
  u_secs o = p_window p /\ u_fmin o = p_fmin p /\ u_fmax o = p_fmax p /\ t_type (u_seg o) = p_type p /\ t_hop (u_seg o) = p_hop p /\
  t_bins (u_seg o) = p_bins p /\ t_states (u_seg o) = p_states p /\ t_clusters (u_seg o) = p_clusters p /\ t_hist (u_seg o) = p_hist p /\
  t_limit (u_seg o) = p_limit p.
Definition window_ok (o : melter) : Prop := match u_window o with None => True | Some w => w = ztab (zlen w) (hamming (zlen w)) end.

Definition cqc (p : params) (fs : Z) : cqconfig :=
  {| c_fs := IZR fs; c_min := IZR (p_fmin p); c_max := IZR (p_fmax p); c_bpo := p_bins p; c_thresh := 54 / 10000 |}.
Definition mfc (fs : Z) : mfccconfig :=
  {| k_fs := fs; k_fftsize := 2048; k_nceps := 19; k_logpower := 1; k_want_c0 := true; k_window := Hamming |}.

Definition dec_state (p : params) (rate : Z) (past : list R) (f : Z) (o : option (decimator R)) : Prop :=
  is_factor (internal_rate p) rate f /\
  if f =? 1 then o = None else exists d, o = Some d /\ heard f (window_samples p rate) past d.
Definition open (p : params) (rate : Z) (past : list R) (o : melter) : Prop :=
  1 <= rate /\ t_rate (u_seg o) = rate /\ (p_type p <> Unknown -> t_ncoeff (u_seg o) = feature_size p) /\
  match p_type p with
  | Unknown => u_dec o = None
  | Mfcc => exists f m, dec_state p rate past f (u_dec o) /\ u_mfcc o = Some m /\ mfcc_uses (mfc (rate / f)) m
  | _ => exists f q t, dec_state p rate past f (u_dec o) /\ u_cq o = Some q /\ cq_uses (cqc p (rate / f)) true q /\ 2 <= q_len q /\
      u_fft o = Some t /\ fftreal_uses (q_len q) t
  end.
Definition closed (o : melter) : Prop := u_cq o = None /\ u_mfcc o = None /\ u_dec o = None.
Definition linv (p : params) (st : option (Z * list R)) (o : melter) : Prop :=
  same_settings p o /\ window_ok o /\ (p_type p <> Unknown -> Forall (fun v => zlen v = feature_size p) (t_features (u_seg o))) /\
  match st with None => closed o | Some (rate, past) => open p rate past o end.

Lemma factor_pos internal rate f : is_factor internal rate f -> 1 <= f <= 8.
Proof. intros H. destruct (is_factor_values _ _ _ H) as [->|[->|[->| ->]]]; lia. Qed.
Lemma reduced_pos internal rate f : 8 <= internal -> 1 <= rate -> is_factor internal rate f -> 1 <= rate / f.
Proof.
  intros Hi Hr F. pose proof (factor_pos _ _ _ F). destruct (Z.eq_dec f 1) as [->|N]; [rewrite Z.div_1_r; lia|].
  apply Z.div_le_lower_bound; [lia|]. destruct F as (q & Q & E).
  assert (2 <= rate / internal \/ rate / internal <= 1) as [L|L] by lia.
  - pose proof (Z.mul_div_le rate internal ltac:(lia)). nia.
  - exfalso. apply N. replace (Z.max 1 (rate / internal)) with 1 in Q by lia. destruct Q as (_ & _ & Q3).
    specialize (Q3 1). assert (q <= 1) by (apply Q3; [exists 0; split; [lia|reflexivity]|lia]). lia.
Qed.
Lemma internal_big p : 8 <= internal_rate p.
Proof. unfold internal_rate. destruct (p_type p); lia. Qed.
Lemma cqc_usable p fs : sane p -> 1 <= fs -> usable (cqc p fs).
Proof. intros (A & B & _) H. unfold usable, cqc. cbn. splits; auto; apply IZR_lt; lia. Qed.
Lemma window_pos p rate : sane p -> 1 <= rate -> 0 <= window_samples p rate.
Proof.
  intros (_ & _ & S) H. unfold window_samples. pose proof (IZR_le 1 rate ltac:(lia)).
  assert (B : (0 <= p_window p * IZR rate)%R) by (apply Rmult_le_pos; lra).
  pose proof (Zfloor_bounds (p_window p * IZR rate + 1 / 1000)) as [B1 B2].
  assert (-1 < Zfloor (p_window p * IZR rate + 1 / 1000)); [|lia]. apply lt_IZR. lra.
Qed.

Lemma make_decimator_ok p rate f old junk : sane p -> 1 <= rate -> is_factor (internal_rate p) rate f -> (f = 1 -> old = None) ->
  exists d, make_decimator old junk (window_samples p rate) f = OK d /\ dec_state p rate [] f d.
Proof.
  intros S Hr F H1. pose proof (factor_pos _ _ _ F). unfold make_decimator, dec_state. destruct (Z.eqb_spec f 1) as [->|N].
  - exists old. cbn. splits; auto.
  - destruct (Z.ltb_spec 1 f); [|lia]. destruct (new_heard junk f (window_samples p rate)) as (d & E & Hd); [lia|now apply window_pos|].
    rewrite E. cbn [bind]. eexists; split; [reflexivity|]. split; auto. eauto.
Qed.

(** Extraction on an open object. *)
Lemma decimated_open p rate past f dec mem block : sane p -> 1 <= rate -> block_ok p rate block -> dec_state p rate past f dec ->
  exists dec' x, decimated dec mem block = OK (dec', x) /\ dec_state p rate (past ++ block) f dec' /\ is_decimated f past block x.
Proof.
  intros S Hr (B1 & B2) (F & Hd). pose proof (factor_pos _ _ _ F) as Fp. pose proof (window_pos p rate S Hr) as Wp.
  unfold dec_state, is_decimated. destruct (Z.eqb_spec f 1) as [->|N].
  - subst dec. exists None, block. splits; auto.
  - destruct Hd as (d & -> & Hd).
    assert (Lb : zlen block = window_samples p rate). { destruct B2 as [B2|B2]; auto. exfalso. apply N. exact (is_factor_unique _ _ _ _ F B2). }
    destruct (decimated_ok f (window_samples p rate) past d mem block) as (d' & x & E & Hd' & ys & Y1 & Y2 & Y3); [lia|lia|auto|].
    rewrite firstn_all2 in Hd', Y1 by (unfold zlen in Lb; lia).
    exists (Some d'), x. split; [exact E|]. split; [split; eauto|].
    exists ys. splits; auto. intros i Hi. rewrite Y3 by auto. destruct (Z.ltb_spec i (window_samples p rate / f)); [reflexivity|].
    rewrite <- Lb in *. lia.
Qed.

Lemma window_kept o n : window_ok o -> 1 <= n ->
  (match u_window o with Some w => if zlen w =? n then OK w else encache Hamming n | None => encache Hamming n end) = OK (ztab n (hamming n)).
Proof.
  unfold window_ok. intros W Hn. destruct (u_window o) as [w|]; [|now apply hamming_ok].
  destruct (Z.eqb_spec (zlen w) n) as [<-|]; [now rewrite <- W|now apply hamming_ok].
Qed.

Lemma short_extract p rate past o mem block : sane p -> linv p (Some (rate, past)) o -> zlen block < window_samples p rate ->
  extract o mem block = OK o.
Proof.
  intros S ((A1 & A2 & A3 & A4 & A5 & A6) & _ & _ & (Hr & R & _ & I)) L.
  unfold extract. rewrite A4. destruct (p_type p); auto.
  - unfold extract_constq. destruct (u_cq o); auto. rewrite A1, R. change (get_windowsize (p_window p) rate) with (window_samples p rate). destruct (Z.ltb_spec (zlen block) (window_samples p rate)); [reflexivity|lia].
  - unfold extract_constq. destruct (u_cq o); auto. rewrite A1, R. change (get_windowsize (p_window p) rate) with (window_samples p rate). destruct (Z.ltb_spec (zlen block) (window_samples p rate)); [reflexivity|lia].
  - unfold extract_mfcc. destruct (u_mfcc o); auto. rewrite A1, R. change (get_windowsize (p_window p) rate) with (window_samples p rate). destruct (Z.ltb_spec (zlen block) (window_samples p rate)); [reflexivity|lia].
Qed.

Lemma forall_snoc {A} (P : A -> Prop) l x : Forall P l -> P x -> Forall P (l ++ [x]).
Proof. intros. apply Forall_app. auto. Qed.

(** One feature vector is added, whatever the decimator delivers. *)
Definition adds p rate past' fs x o r : Prop :=
  exists o' v, r = OK o' /\ linv p (Some (rate, past')) o' /\
    t_features (u_seg o') = t_features (u_seg o) ++ [v] /\ t_result (u_seg o') = t_result (u_seg o) /\ features_of p fs x v.

Lemma constq_core p rate past o mem block f dec' x past' : sane p -> linv p (Some (rate, past)) o -> p_type p = ConstQ \/ p_type p = Chroma ->
  is_factor (internal_rate p) rate f -> window_samples p rate <= zlen block ->
  decimated (u_dec o) mem block = OK (dec', x) -> dec_state p rate past' f dec' -> adds p rate past' (rate / f) x o (extract_constq o mem block).
Proof.
  intros S ((A1 & A2 & A3 & A4 & A5 & A6 & A7) & W & FF & (Hr & R & N & I)) T F B Ed Hd'.
  assert (T' : p_type p <> Unknown) by (destruct T as [->| ->]; discriminate). specialize (N T'). specialize (FF T').
  assert (I' : exists f q t, dec_state p rate past f (u_dec o) /\ u_cq o = Some q /\ cq_uses (cqc p (rate / f)) true q /\ 2 <= q_len q /\
      u_fft o = Some t /\ fftreal_uses (q_len q) t) by (destruct T as [T|T]; rewrite T in I; exact I).
  clear I. destruct I' as (f' & q & t & Hd & Q & Uq & Hn & Et & Ut).
  assert (f' = f) by (destruct Hd as (F' & _); exact (is_factor_unique _ _ _ _ F' F)). subst f'. pose proof (reduced_pos _ _ _ (internal_big p) Hr F) as Hfs.
  pose proof (cqc_usable p (rate / f) S Hfs) as U.
  destruct (cq_parameters _ _ _ U Uq) as (_ & Kq & Nq & _). cbn [cqc c_fs c_min c_max c_bpo c_thresh] in Kq, Nq.
  assert (Fs : feature_size p = q_uk q) by (rewrite Kq; unfold feature_size; destruct T as [->| ->]; reflexivity).
  destruct (cq_uses_inv _ _ _ U Uq) as [M _]. pose proof (md_uk0 _ _ M) as Hu.
  unfold extract_constq. rewrite Q, A1, R. change (get_windowsize (p_window p) rate) with (window_samples p rate).
  destruct (Z.ltb_spec (zlen block) (window_samples p rate)); [lia|].
  set (n := q_len q) in *. rewrite window_kept by (auto; lia). cbn [bind]. rewrite Ed. cbn [bind].
  rewrite Et, N, Fs.
  destruct (over_frames_ok (constq_state (cqc p (rate / f)) q x) (constq_frame q (ztab n (hamming n)) x (q_uk q) n) (zlen x) n
     (t, rjunk mem 1 n, rjunk mem 2 n, rjunk mem 3 n, rjunk mem 4 (q_uk q), rjunk mem 5 (q_uk q), repeat 0%R (Z.to_nat (q_uk q))))
    as (count & st & Eo & Fc & Q1); auto.
  - apply zlen_nonneg.
  - unfold constq_state, rjunk. fold n. splits; auto; try (zl; lia).
    apply (zn_ext 0%R); [zl; lia|]. intros i Hi. zl. rewrite zn_ztab by lia. rewrite zn_repeat. now rewrite rsum_0.
  - intros k s Hk Hs. now apply constq_frame_ok.
  - rewrite Eo. cbn [bind]. destruct st as [[[[[[t' fr] re] im] cr] ci] sums]. unfold constq_state in Q1. fold n in Q1.
    destruct Q1 as (Ut' & _ & _ & _ & _ & _ & Vs). subst sums. cbn [bind].
    rewrite averaged_ok by (zl; lia). cbn [bind]. do 2 eexists. split; [reflexivity|].
    splits.
    + unfold linv, same_settings, window_ok, open, closed. cbn [pushed u_secs u_fmin u_fmax u_seg u_cq u_mfcc u_dec u_fft u_window t_features t_type t_rate t_hop t_bins t_ncoeff t_states t_clusters t_hist t_limit].
      splits; auto; try tauto.
      * rewrite zlen_ztab. f_equal; [|f_equal]; lia.
      * intros _. apply forall_snoc; auto. rewrite zlen_ztab, Fs. lia.
      * destruct T as [T|T]; rewrite T; exists f, q, t'; splits; auto.
    + reflexivity.
    + reflexivity.
    + exists n, count. splits; auto.
      * unfold frame_size. destruct T as [->| ->]; exact Nq.
      * rewrite zlen_ztab, Fs. lia.
      * rewrite Fs. intros i Hi. rewrite !zn_ztab by lia. unfold feature. destruct T as [->| ->]; reflexivity.
Qed.

Lemma mfcc_core p rate past o mem block f dec' x past' : sane p -> linv p (Some (rate, past)) o -> p_type p = Mfcc ->
  is_factor (internal_rate p) rate f -> window_samples p rate <= zlen block ->
  decimated (u_dec o) mem block = OK (dec', x) -> dec_state p rate past' f dec' -> adds p rate past' (rate / f) x o (extract_mfcc o mem block).
Proof.
  intros S ((A1 & A2 & A3 & A4 & A5 & A6 & A7) & W & FF & (Hr & R & N & I)) T F B Ed Hd'.
  assert (T' : p_type p <> Unknown) by (rewrite T; discriminate). specialize (N T'). specialize (FF T').
  rewrite T in I. destruct I as (f' & m & Hd & Q & Uq).
  assert (f' = f) by (destruct Hd as (F' & _); exact (is_factor_unique _ _ _ _ F' F)). subst f'.
  assert (Fs : feature_size p = 20) by (unfold feature_size; now rewrite T).
  assert (C : config_ok (mfc (rate / f))) by (unfold config_ok; cbn; splits; lia || reflexivity).
  pose proof (uses_inv _ _ C Uq) as MI. pose proof (i_n _ _ MI) as Nn. cbn [mfc k_fftsize] in Nn.
  unfold extract_mfcc. rewrite Q, A1, R. change (get_windowsize (p_window p) rate) with (window_samples p rate).
  destruct (Z.ltb_spec (zlen block) (window_samples p rate)); [lia|]. rewrite Nn. rewrite Ed. cbn [bind].
  rewrite N, Fs.
  destruct (over_frames_ok (mfcc_state (mfc (rate / f)) x) (mfcc_frame x (rjunk mem 1 2048) 20 2048) (zlen x) 2048
     (m, rjunk mem 2 2048, rjunk mem 3 20, repeat 0%R (Z.to_nat 20)))
    as (count & st & Eo & Fc & Q1); auto; try lia.
  - apply zlen_nonneg.
  - unfold mfcc_state, rjunk. change (MfccProofs.count (mfc (rate / f))) with 20. cbn [k_fftsize mfc]. splits; auto; try (zl; lia).
  - intros k s Hk Hs. apply (mfcc_frame_ok (mfc (rate / f)) x (rjunk mem 1 2048) k s); auto.
  - rewrite Eo. cbn [bind]. destruct st as [[[m' fr] out] sums]. unfold mfcc_state in Q1. destruct Q1 as (Um & _ & _ & Vs). subst sums.
    change (MfccProofs.count (mfc (rate / f))) with 20. cbn [bind].
    rewrite averaged_ok by (zl; lia). cbn [bind]. do 2 eexists. split; [reflexivity|].
    splits.
    + unfold linv, same_settings, window_ok, open, closed. cbn [pushed u_secs u_fmin u_fmax u_seg u_cq u_mfcc u_dec u_fft u_window t_features t_type t_rate t_hop t_bins t_ncoeff t_states t_clusters t_hist t_limit].
      splits; auto; try tauto.
      * intros _. apply forall_snoc; auto.
      * rewrite T. exists f, m'. splits; auto.
    + reflexivity.
    + reflexivity.
    + exists 2048, count. splits; auto.
      * unfold frame_size. now rewrite T.
      * rewrite Fs. intros i Hi. rewrite !zn_ztab by lia. unfold feature. rewrite T. reflexivity.
Qed.

Lemma core p rate past o mem block f dec' x past' : sane p -> linv p (Some (rate, past)) o -> p_type p <> Unknown ->
  is_factor (internal_rate p) rate f -> window_samples p rate <= zlen block ->
  decimated (u_dec o) mem block = OK (dec', x) -> dec_state p rate past' f dec' -> adds p rate past' (rate / f) x o (extract o mem block).
Proof.
  intros S L T F B Ed Hd. unfold extract. pose proof L as ((_ & _ & _ & A4 & _) & _). rewrite A4. destruct (p_type p) eqn:Ty; [congruence| | |].
  - eapply constq_core; eauto.
  - eapply constq_core; eauto.
  - eapply mfcc_core; eauto.
Qed.
Lemma open_dec p rate past o : linv p (Some (rate, past)) o -> p_type p <> Unknown -> 1 <= rate /\ exists f, dec_state p rate past f (u_dec o).
Proof.
  intros (_ & _ & _ & (Hr & _ & _ & I)) T. split; auto. destruct (p_type p); [congruence| | |].
  - destruct I as (f & q & t & H & _). eauto.
  - destruct I as (f & q & t & H & _). eauto.
  - destruct I as (f & m & H & _). eauto.
Qed.
Lemma extract_ok p rate past o mem block : sane p -> linv p (Some (rate, past)) o -> p_type p <> Unknown -> block_ok p rate block ->
  exists o' v, extract o mem block = OK o' /\ linv p (Some (rate, past ++ block)) o' /\
    t_features (u_seg o') = t_features (u_seg o) ++ [v] /\ t_result (u_seg o') = t_result (u_seg o) /\ is_features p rate past block v.
Proof.
  intros S L T B. destruct (open_dec _ _ _ _ L T) as (Hr & f & Hd).
  destruct (decimated_open p rate past f (u_dec o) mem block S Hr B Hd) as (dec' & x & Ed & Hd' & Dx). pose proof Hd as (F & _).
  destruct (core p rate past o mem block f dec' x (past ++ block) S L T F (proj1 B) Ed Hd') as (o' & v & E & L' & G1 & G2 & V).
  exists o', v. splits; auto. exists f, x. auto.
Qed.
(** Longer blocks where the rate is reduced: only a window's length is filtered, the rest of the samples analysed is
    whatever the memory held. *)
Lemma extract_long p rate past o mem block f : sane p -> linv p (Some (rate, past)) o -> p_type p <> Unknown ->
  is_factor (internal_rate p) rate f -> f <> 1 -> window_samples p rate <= zlen block ->
  exists o' v x, extract o mem block = OK o' /\
    linv p (Some (rate, past ++ firstn (Z.to_nat (window_samples p rate)) block)) o' /\
    t_features (u_seg o') = t_features (u_seg o) ++ [v] /\ block_out f (window_samples p rate) past block (mem 0) x /\
    features_of p (rate / f) x v.
Proof.
  intros S L T F N B. destruct (open_dec _ _ _ _ L T) as (Hr & f' & Hd). pose proof Hd as (F' & Hd').
  assert (f' = f) by exact (is_factor_unique _ _ _ _ F' F). subst f'. pose proof (factor_pos _ _ _ F).
  destruct (Z.eqb_spec f 1); [congruence|]. destruct Hd' as (d & Ed & Hh). pose proof (window_pos p rate S Hr).
  destruct (decimated_ok f (window_samples p rate) past d mem block) as (d' & x & Ex & Hh' & Bx); auto; try lia.
  rewrite <- Ed in Ex.
  destruct (core p rate past o mem block f (Some d') x (past ++ firstn (Z.to_nat (window_samples p rate)) block) S L T F B Ex) as (o' & v & E & L' & G1 & G2 & V).
  - split; auto. destruct (Z.eqb_spec f 1); [congruence|]. eauto.
  - exists o', v, x. splits; auto.
Qed.

(** *** Initialisation *)
Lemma cq_new_uk c jd o : cq_new c jd = OK o -> q_uk o = Zceil (IZR (c_bpo c) * ln (c_max c / c_min c) / ln 2) /\ 0 <= q_uk o.
Proof.
  unfold cq_new. intros E. apply bind_OK in E as (uk & E1 & E). apply int_inv in E1 as [-> _].
  apply bind_OK in E as (l & _ & E). apply bind_OK in E as (w & _ & E). apply bind_OK in E as (z & E2 & E). apply int_inv in E2 as [-> _].
  match type of E with (if ?B then _ else _) = _ => destruct B eqn:L end; [congruence|]. apply Z.ltb_ge in L. injection E as <-.
  cbn [q_uk]. split; auto. lia.
Qed.
Lemma cq_make_uses c mem q : cq_make c mem = OK q -> cq_uses c false q.
Proof.
  unfold cq_make. intros E. apply bind_OK in E as (q0 & E0 & E). destruct (cq_new_uk _ _ _ E0) as [K0 P0]. destruct (cq_new_uk _ _ _ E) as [K1 _].
  eapply cu_new; [exact E|]. unfold rjunk. rewrite zlen_ztab. lia.
Qed.
Lemma cq_make_ok c mem : usable c -> Zceil (quality (c_bpo c) * c_fs c / c_min c) <= 2 ^ 30 ->
  0 <= Zceil (IZR (c_bpo c) * ln (c_max c / c_min c) / ln 2) < 2 ^ 30 -> exists q, cq_make c mem = OK q.
Proof.
  intros U H1 H2. unfold cq_make. destruct (cq_constructed c [] U H1 H2) as (q0 & E0). rewrite E0. cbn [bind]. now apply cq_constructed.
Qed.

Definition clean (p : params) (st : option (Z * list R)) (rate : Z) : Prop :=
  match st with None => True | Some (r, _) => is_factor (internal_rate p) r 1 \/ ~ is_factor (internal_rate p) rate 1 end.

Lemma clean_old p st o rate f : linv p st o -> clean p st rate -> is_factor (internal_rate p) rate f -> f = 1 -> u_dec o = None.
Proof.
  intros (_ & _ & _ & I) C F ->. destruct st as [[r past]|]; [|apply I]. destruct C as [C|C]; [|contradiction].
  destruct I as (_ & _ & _ & I). 
  assert (K : forall g, dec_state p r past g (u_dec o) -> u_dec o = None).
  { intros g (G & H). rewrite (is_factor_unique _ _ _ _ G C) in H. exact H. }
  destruct (p_type p); auto.
  - destruct I as (g & q & t & H & _). eauto.
  - destruct I as (g & q & t & H & _). eauto.
  - destruct I as (g & m & H & _). eauto.
Qed.

(** What initialise() needs for constant-Q and chroma features. *)
Definition kernel_fits (p : params) (rate : Z) : Prop :=
  forall f, is_factor 11025 rate f ->
    1 < Zceil (quality (p_bins p) * IZR (rate / f) / IZR (p_fmin p)) <= 2 ^ 30 /\ 0 <= feature_size p < 2 ^ 30.
Definition starts (p : params) (rate : Z) : Prop := match p_type p with ConstQ | Chroma => kernel_fits p rate | _ => True end.

Lemma initialise_cq p st o mem rate : sane p -> linv p st o -> clean p st rate -> 1 <= rate -> p_type p = ConstQ \/ p_type p = Chroma ->
  (forall o', initialise o mem rate = OK o' -> linv p (Some (rate, [])) o' /\ t_features (u_seg o') = t_features (u_seg o) /\ t_result (u_seg o') = t_result (u_seg o)) /\
  (kernel_fits p rate -> exists o', initialise o mem rate = OK o').
Proof.
  intros S I C Hr T. pose proof I as (A & W & FF & St). pose proof A as (A1 & A2 & A3 & A4 & A5 & A6 & A7 & A8 & A9 & A10).
  assert (T' : p_type p <> Unknown) by (destruct T as [->| ->]; discriminate).
  assert (Ti : internal_rate p = 11025) by (unfold internal_rate; destruct T as [->| ->]; reflexivity).
  assert (EI : initialise o mem rate =
    (f <- factor_for 11025 rate ;;
    dec <- make_decimator (u_dec o) (mem 0 0) (get_windowsize (u_secs o) rate) f ;;
    q <- cq_make (cq_settings rate (u_fmin o) (u_fmax o) (t_bins (u_seg o)) f) mem ;;
    let n := q_len q in
    q <- sparsekernel q (rjunk mem 2 n) (rjunk mem 3 n) (rjunk mem 4 n) (rjunk mem 5 n) (cjunk mem 6 n) (cjunk mem 7 n) ;;
    t <- fftreal_new n (cjunk mem 8 (n / 2)) (cjunk mem 9 (n / 2)) (cjunk mem 10 n) ;;
    OK (Melter (with_rate (u_seg o) rate (q_uk q)) (u_secs o) (u_fmin o) (u_fmax o) (Some q) (u_mfcc o) dec (Some t) (u_window o)))).
  { unfold initialise. rewrite A4. destruct T as [->| ->]; reflexivity. }
  rewrite EI. clear EI. destruct (factor_for_ok 11025 rate) as (f & Ef & F); [lia|lia|]. rewrite Ef. cbn [bind].
  rewrite A1, A2, A3, A6. change (get_windowsize (p_window p) rate) with (window_samples p rate). rewrite <- Ti in F.
  destruct (make_decimator_ok p rate f (u_dec o) (mem 0 0) S Hr F (clean_old p st o rate f I C F)) as (dec & Ed & Hd). rewrite Ed. cbn [bind].
  pose proof (reduced_pos _ _ _ (internal_big p) Hr F) as Hfs. pose proof (cqc_usable p (rate / f) S Hfs) as U.
  assert (Ec : cq_settings rate (p_fmin p) (p_fmax p) (p_bins p) f = cqc p (rate / f)).
  { unfold cq_settings, cqc. rewrite Z.quot_div_nonneg by (pose proof (factor_pos _ _ _ F); lia). reflexivity. }
  rewrite Ec.
  (* a kernel is made for every constant-Q object *)
  assert (K : forall q, cq_uses (cqc p (rate / f)) false q ->
    exists q', sparsekernel q (rjunk mem 2 (q_len q)) (rjunk mem 3 (q_len q)) (rjunk mem 4 (q_len q)) (rjunk mem 5 (q_len q)) (cjunk mem 6 (q_len q)) (cjunk mem 7 (q_len q)) = OK q' /\
      cq_uses (cqc p (rate / f)) true q' /\ q_len q' = q_len q /\ 1 <= q_len q <= 2 ^ 30 /\ half_ok (q_len q)).
  { intros q Uq. destruct (cq_uses_inv _ _ _ U Uq) as [M _]. destruct (made_len _ _ U M) as (Hl & Hh & _).
    assert (L : forall k, zlen (rjunk mem k (q_len q)) = q_len q) by (intros; unfold rjunk; zl; lia).
    assert (L' : forall k, zlen (cjunk mem k (q_len q)) = q_len q) by (intros; unfold cjunk; zl; lia).
    destruct (cq_kernel_made _ _ q (rjunk mem 2 (q_len q)) (rjunk mem 3 (q_len q)) (rjunk mem 4 (q_len q)) (rjunk mem 5 (q_len q)) (cjunk mem 6 (q_len q)) (cjunk mem 7 (q_len q)) U Uq)
      as (q' & E & U'); auto.
    destruct (cq_parameters _ _ _ U Uq) as (_ & _ & N1 & _). destruct (cq_parameters _ _ _ U U') as (_ & _ & N2 & _).
    exists q'. splits; auto; try lia. exact (next_power_unique _ _ _ N2 N1). }
  split.
  - intros o' E. apply bind_OK in E as (q & Eq & E). pose proof (cq_make_uses _ _ _ Eq) as Uq.
    destruct (K q Uq) as (q' & Ek & U' & Lq & Hl & Hh). cbv zeta in E. rewrite Ek in E. cbn [bind] in E.
    apply bind_OK in E as (t & Et & E). injection E as <-. cbn [u_seg with_rate t_features t_result]. splits; auto.
    assert (Hn : 2 <= q_len q). { destruct Hh as [H1|[H1 H2]]; [|lia]. exfalso. rewrite H1 in Et. unfold fftreal_new in Et. cbn in Et. discriminate. }
    assert (Ut : fftreal_uses (q_len q) t).
    { eapply ru_new; [| | |exact Et]; unfold cjunk; rewrite zlen_ztab; try lia; apply Z.max_r; apply Z.div_pos; lia. }
    unfold linv. split; [unfold same_settings; cbn; splits; auto|]. split; [exact W|]. split; [intros H; exact (FF H)|].
    unfold open. cbn [u_seg with_rate t_rate t_ncoeff u_dec u_cq u_fft u_mfcc]. splits; auto.
    + intros _. destruct (cq_parameters _ _ _ U U') as (_ & -> & _). unfold feature_size. destruct T as [->| ->]; reflexivity.
    + destruct T as [->| ->]; exists f, q', t; splits; auto; try lia; now rewrite Lq.
  - intros Kf. rewrite Ti in F. destruct (Kf f F) as (H1 & H2).
    assert (Fz : feature_size p = Zceil (IZR (c_bpo (cqc p (rate / f))) * ln (c_max (cqc p (rate / f)) / c_min (cqc p (rate / f))) / ln 2)).
    { unfold feature_size. destruct T as [->| ->]; reflexivity. }
    destruct (cq_make_ok (cqc p (rate / f)) mem U) as (q & Eq); [cbn; lia|rewrite <- Fz; lia|]. rewrite Eq. cbn [bind].
    pose proof (cq_make_uses _ _ _ Eq) as Uq. destruct (K q Uq) as (q' & Ek & U' & Lq & Hl & Hh). rewrite Ek. cbn [bind].
    destruct (cq_parameters _ _ _ U Uq) as (_ & _ & (_ & N2 & _) & _). cbn [cqc c_bpo c_fs c_min] in N2.
    destruct Hh as [Hh|[Hh1 Hh2]]; [lia|].
    destruct (proj2 (fftreal_construction (q_len q) (cjunk mem 8 (q_len q / 2)) (cjunk mem 9 (q_len q / 2)) (cjunk mem 10 (q_len q)))) as (t & Et).
    + change (2 ^ 31) with (2 * 2 ^ 30). lia.
    + rewrite Hh2, Z.mul_comm. apply Z.mod_mul. lia.
    + unfold cjunk. rewrite zlen_ztab. apply Z.max_r; apply Z.div_pos; lia.
    + unfold cjunk. rewrite zlen_ztab. apply Z.max_r; apply Z.div_pos; lia.
    + unfold cjunk. rewrite zlen_ztab. lia.
    + rewrite Et. cbn [bind]. eauto.
Qed.

Lemma initialise_mfcc p st o mem rate : sane p -> linv p st o -> clean p st rate -> 1 <= rate -> p_type p = Mfcc ->
  exists o', initialise o mem rate = OK o' /\ linv p (Some (rate, [])) o' /\ t_features (u_seg o') = t_features (u_seg o) /\ t_result (u_seg o') = t_result (u_seg o).
Proof.
  intros S I C Hr T. pose proof I as (A & W & FF & St). pose proof A as (A1 & A2 & A3 & A4 & A5 & A6 & A7 & A8 & A9 & A10).
  assert (Ti : internal_rate p = 22050) by (unfold internal_rate; now rewrite T).
  unfold initialise. rewrite A4, T.
  destruct (factor_for_ok 22050 rate) as (f & Ef & F); [lia|lia|]. rewrite Ef. cbn [bind].
  rewrite A1. change (get_windowsize (p_window p) rate) with (window_samples p rate). rewrite <- Ti in F.
  destruct (make_decimator_ok p rate f (u_dec o) (mem 0 0) S Hr F (clean_old p st o rate f I C F)) as (dec & Ed & Hd). rewrite Ed. cbn [bind].
  assert (Ec : mfcc_settings rate f = mfc (rate / f)).
  { unfold mfcc_settings, mfc. rewrite Z.quot_div_nonneg by (pose proof (factor_pos _ _ _ F); lia). reflexivity. }
  rewrite Ec.
  assert (Cc : config_ok (mfc (rate / f))) by (unfold config_ok; cbn; splits; lia || reflexivity).
  assert (Fr : fresh_ok (k_fftsize (mfc (rate / f))) (cjunk mem 8 1024) (cjunk mem 9 1024) (cjunk mem 10 2048)).
  { unfold fresh_ok, cjunk. cbn [mfc k_fftsize]. rewrite !zlen_ztab. splits; reflexivity. }
  destruct (mfcc_constructed _ _ _ _ Cc Fr) as (m & Em). rewrite Em. cbn [bind]. eexists; split; [reflexivity|].
  cbn [u_seg with_rate t_features t_result]. splits; auto.
  unfold linv. split; [unfold same_settings; cbn; splits; auto|]. split; [exact W|]. split; [intros H; exact (FF H)|].
  unfold open. cbn [u_seg with_rate t_rate t_ncoeff u_dec u_cq u_fft u_mfcc]. splits; auto.
  - intros _. unfold feature_size. now rewrite T.
  - rewrite T. exists f, m. splits; auto. eapply mu_new; eauto.
Qed.
Lemma initialise_unknown p st o mem rate : linv p st o -> 1 <= rate -> p_type p = Unknown ->
  exists o', initialise o mem rate = OK o' /\ linv p (Some (rate, [])) o' /\ t_features (u_seg o') = t_features (u_seg o) /\ t_result (u_seg o') = t_result (u_seg o).
Proof.
  intros I Hr T. pose proof I as (A & W & FF & St). pose proof A as (A1 & A2 & A3 & A4 & A5 & A6 & A7 & A8 & A9 & A10).
  unfold initialise. rewrite A4, T. eexists; split; [reflexivity|]. cbn [u_seg with_rate t_features t_result]. splits; auto.
  unfold linv. split; [unfold same_settings; cbn; splits; auto|]. split; [exact W|]. split; [intros H; exact (FF H)|].
  unfold open. cbn [u_seg with_rate t_rate t_ncoeff u_dec u_cq u_fft u_mfcc]. splits; auto; [congruence|]. rewrite T.
  destruct st as [[r past]|]; [|apply St]. destruct St as (_ & _ & _ & St). now rewrite T in St.
Qed.

(** *** Segmentation *)
Lemma segment_result junk junkZ rnd1 rnd2 sfmin pca s s' : segment junk junkZ rnd1 rnd2 sfmin pca s = OK s' -> s' = s \/ exists g, s' = segmented s g.
Proof.
  unfold segment. destruct (zlen (t_features s) <? t_hist s).
  - intros [= <-]. now left.
  - intros E. apply bind_OK in E as (arr & _ & E). apply bind_OK in E as (q & _ & E). apply bind_OK in E as (g & _ & E).
    injection E as <-. right. exists g. reflexivity.
Qed.

Lemma melter_segment_inv p st o junk junkZ rnd1 rnd2 sfmin pca o' : linv p st o -> melter_segment junk junkZ rnd1 rnd2 sfmin pca o = OK o' -> linv p None o'.
Proof.
  intros (A & W & FF & _) E. unfold melter_segment in E. apply bind_OK in E as (s & E & Eo). injection Eo as <-.
  destruct A as (A1 & A2 & A3 & A4 & A5 & A6 & A7 & A8 & A9 & A10).
  destruct (segment_result _ _ _ _ _ _ _ _ E) as [->|(g & ->)]; unfold linv; (split; [unfold same_settings; cbn; splits; auto|]);
    (split; [exact W|]); (split; [|unfold closed; cbn; auto]).
  - exact FF.
  - intros _. constructor.
Qed.

Lemma life_inv p st o : sane p -> life p st o -> linv p st o.
Proof.
  intros S. induction 1 as [rate nc g|st mem rate o o' L IH Hr C E|mem rate past block o o' L IH B E|junk junkZ rnd1 rnd2 sfmin pca st o o' L IH E].
  - unfold linv, same_settings, window_ok, closed. cbn. splits; auto.
  - destruct (p_type p) eqn:T.
    + destruct (initialise_unknown p st o mem rate IH Hr T) as (o1 & E1 & I1 & _). congruence.
    + destruct (initialise_cq p st o mem rate S IH C Hr) as [K _]; auto. now destruct (K o' E).
    + destruct (initialise_cq p st o mem rate S IH C Hr) as [K _]; auto. now destruct (K o' E).
    + destruct (initialise_mfcc p st o mem rate S IH C Hr T) as (o1 & E1 & I1 & _). congruence.
  - unfold extract in E. pose proof IH as ((A1 & A2 & A3 & A4 & A5) & W & FF & (Hr & R & N & I)). rewrite A4 in E. destruct (p_type p) eqn:T.
    + injection E as <-. destruct IH as (K1 & K2 & K3 & K4). split; [exact K1|]. split; [exact K2|]. split; [exact K3|].
      unfold open in *. rewrite T in *. exact K4.
    + destruct (extract_ok p rate past o mem block S IH) as (o1 & v & E1 & I1 & _); auto; [congruence|].
      unfold extract in E1. rewrite A4 in E1. congruence.
    + destruct (extract_ok p rate past o mem block S IH) as (o1 & v & E1 & I1 & _); auto; [congruence|].
      unfold extract in E1. rewrite A4 in E1. congruence.
    + destruct (extract_ok p rate past o mem block S IH) as (o1 & v & E1 & I1 & _); auto; [congruence|].
      unfold extract in E1. rewrite A4 in E1. congruence.
  - eapply melter_segment_inv; eauto.
Qed.
