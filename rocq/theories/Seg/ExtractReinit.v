(** Initialising a second time, for a rate that needs no reduction, keeps the old decimator. *)
From Coq Require Import List ZArith QArith Qreals Reals Lia Lra Bool.
From Verif.Base Require Import Imp Sums RealOps Loops.
From Verif.Maths Require Import IntModel IntSpec IntProofs.
From Verif.Rate Require Import Df2tSpec Df2tProofs DecimatorModel DecimatorSpec DecimatorProofs.
From Verif.Fft Require Import Cplx FftModel FftSpec FftProofs FftResults.
From Verif.Chroma Require Import CqModel CqSpec CqResults.
From Verif.Mfcc Require Import MfccModel MfccSpec MfccProofs.
From Verif.Seg Require Import SegModel SegSpec ExtractModel ExtractSpec ExtractProofs ExtractResults ExtractClient.
Import ListNotations.
Open Scope Z_scope.

(** A decimator given fewer samples than it was made for reads beyond them. *)
Lemma overrun f w past d mem block : 2 <= f -> heard f w past d -> zlen block + zlen block / f < w ->
  decimated (Some d) mem block = UB.
Proof.
  intros Hf H Hw. unfold heard, dec_ok in H.
  assert (HC : exists b0 b1 b2 b3 b4 b5 b6 b7 a0 a1 a2 a3 a4 a5 a6 a7,
    DecimatorModel.coefficients f = ([b0; b1; b2; b3; b4; b5; b6; b7], [a0; a1; a2; a3; a4; a5; a6; a7])).
  { unfold DecimatorModel.coefficients. zcase; repeat eexists. }
  destruct HC as (b0 & b1 & b2 & b3 & b4 & b5 & b6 & b7 & a0 & a1 & a2 & a3 & a4 & a5 & a6 & a7 & HC).
  rewrite HC in H. destruct H as (Hb & Ha & Hi & Ho & Hfa & Hl & _). cbn [map] in Hb, Ha.
  pose proof (zlen_nonneg block). assert (0 <= zlen block / f) by (apply Z.div_pos; lia).
  unfold decimated, decimator_block, decimator_process. rewrite Hfa, Hi. destruct (Z.eqb_spec f 1); [lia|].
  rewrite Z.quot_div_nonneg by lia.
  set (m := block ++ rjunk mem 0 (zlen block / f)).
  assert (Hm : zlen m = zlen block + zlen block / f) by (unfold m, rjunk; zl; rewrite Z.max_r; lia).
  unfold decimator_alias. rewrite Hb, Ha.
  repeat match goal with |- context [aget (?x :: ?l) ?i] =>
    rewrite (@aget_OK R 0%R (x :: l) i) by (unfold zlen; cbn [length]; lia) end.
  cbn [bind].
  match goal with |- context [for_up 0 w ?F ?s0] => set (body := F); set (s := s0) end.
  rewrite (for_up_split 0 (zlen m) w body s) by lia.
  destruct (for_up_inv (fun _ '(_, _, _, buf) => zlen buf = w) 0 (zlen m) body s) as ([[[u1 u2] u3] u4] & E & _).
  - lia.
  - exact Hl.
  - intros i [[[v1 v2] v3] buf] Hi' HB. unfold body. rewrite Z.add_0_l. rewrite (aget_OK 0%R) by lia. cbn [bind].
    rewrite aset_OK by lia. cbn [bind]. eexists; split; [reflexivity|]. cbv beta iota in *. zl; lia.
  - rewrite E. cbn [bind]. rewrite for_up_first by lia. unfold body at 1. rewrite Z.add_0_l.
    assert (A : aget m (zlen m) = UB) by (unfold aget; destruct (nth_error m (Z.to_nat (zlen m))) eqn:En; [assert (nth_error m (Z.to_nat (zlen m)) <> None) as Hn by congruence; apply nth_error_Some in Hn; unfold zlen in Hn; lia|zcase; auto]). rewrite A. reflexivity.
Qed.

(** An object without what initialise() makes. *)
Definition bare (o : melter) : melter := Melter (u_seg o) (u_secs o) (u_fmin o) (u_fmax o) None None None None (u_window o).
Lemma bare_ok p st o : linv p st o -> linv p None (bare o).
Proof. intros (A & W & FF & _). unfold linv, closed. cbn. splits; auto. Qed.

Lemma factor_1 internal rate f : is_factor internal rate 1 -> is_factor internal rate f -> f = 1.
Proof. intros A B. exact (is_factor_unique _ _ _ _ B A). Qed.

(** Where no reduction is needed, the decimator is not looked at. *)
Definition with_dec (o o1 : melter) : melter :=
  Melter (u_seg o1) (u_secs o1) (u_fmin o1) (u_fmax o1) (match t_type (u_seg o) with Mfcc => u_cq o | _ => u_cq o1 end)
    (match t_type (u_seg o) with Mfcc => u_mfcc o1 | _ => u_mfcc o end) (u_dec o) (match t_type (u_seg o) with Mfcc => u_fft o | _ => u_fft o1 end) (u_window o1).
Lemma initialise_bare_cq o mem r o1 : t_type (u_seg o) = ConstQ \/ t_type (u_seg o) = Chroma -> factor_for 11025 r = OK 1 ->
  initialise (bare o) mem r = OK o1 -> initialise o mem r = OK (with_dec o o1).
Proof.
  intros T Ef E. unfold initialise, with_dec in *. cbn [bare u_seg u_secs u_fmin u_fmax u_dec u_cq u_fft u_mfcc u_window] in E.
  assert (K : forall s, s = ConstQ \/ s = Chroma -> t_type (u_seg o) = s -> initialise o mem r = OK (with_dec o o1)).
  2: { destruct T as [T|T]; [apply (K ConstQ)|apply (K Chroma)]; auto. }
  intros s Hs Ts. unfold initialise, with_dec. rewrite Ts in *.
  destruct Hs as [-> | ->]; rewrite Ef in *; cbn [bind] in *; unfold make_decimator in *; change (1 <? 1) with false in *; cbv iota in *; cbn [bind] in *;
    (apply bind_OK in E as (q & Eq & E); rewrite Eq; cbn [bind]; cbv zeta in *; apply bind_OK in E as (q' & Eq' & E); rewrite Eq'; cbn [bind];
    apply bind_OK in E as (t & Et & E); rewrite Et; cbn [bind]; injection E as <-; reflexivity).
Qed.
Lemma bind_l {A B} (a : A) (k : A -> res B) : bind (OK a) k = k a.
Proof. reflexivity. Qed.
Lemma initialise_mfcc_eq o mem rate : t_type (u_seg o) = Mfcc -> initialise o mem rate =
    (f <- factor_for 22050 rate ;;
    dec <- make_decimator (u_dec o) (mem 0 0) (get_windowsize (u_secs o) rate) f ;;
    m <- mfcc_new (mfcc_settings rate f) (cjunk mem 8 1024) (cjunk mem 9 1024) (cjunk mem 10 2048) ;;
    OK (Melter (with_rate (u_seg o) rate 20) (u_secs o) (u_fmin o) (u_fmax o) (u_cq o) (Some m) dec (u_fft o) (u_window o))).
Proof. intros T. unfold initialise. rewrite T. reflexivity. Qed.
Lemma initialise_bare_mfcc o mem r o1 : t_type (u_seg o) = Mfcc -> factor_for 22050 r = OK 1 ->
  initialise (bare o) mem r = OK o1 -> initialise o mem r = OK (with_dec o o1).
Proof.
  intros T Ef E. rewrite (initialise_mfcc_eq (bare o)) in E by exact T. rewrite initialise_mfcc_eq by exact T.
  cbn [bare u_seg u_secs u_fmin u_fmax u_dec u_cq u_fft u_mfcc u_window] in E.
  rewrite Ef in E |- *. rewrite bind_l in E |- *. cbv beta in E |- *. unfold make_decimator in E |- *. change (1 <? 1) with false in E |- *. cbv iota in E |- *.
  rewrite bind_l in E |- *. cbv beta in E |- *.
  revert E. generalize (mfcc_new (mfcc_settings r 1) (cjunk mem 8 1024) (cjunk mem 9 1024) (cjunk mem 10 2048)). intros M E.
  unfold with_dec. rewrite T. destruct M as [m| | |]; cbn [bind] in *; try discriminate. injection E as <-. reflexivity.
Qed.

Theorem reinitialised p rate past o mem rate' : sane p -> p_type p <> Unknown -> life p (Some (rate, past)) o -> 1 <= rate' ->
  starts p rate' -> is_factor (internal_rate p) rate' 1 ->
  exists o', initialise o mem rate' = OK o' /\ u_dec o' = u_dec o /\ window_ok o' /\ t_type (u_seg o') = p_type p /\ t_rate (u_seg o') = rate' /\ u_secs o' = p_window p /\
    (p_type p = Mfcc -> exists m, u_mfcc o' = Some m) /\ (p_type p <> Mfcc -> exists q, u_cq o' = Some q /\ 1 <= q_len q).
Proof.
  intros S T L Hr St F1. pose proof (life_inv p _ o S L) as I. pose proof (bare_ok _ _ _ I) as IB.
  assert (K : exists o', initialise (bare o) mem rate' = OK o' /\ linv p (Some (rate', [])) o').
  { unfold starts in St. destruct (p_type p) eqn:Ty; [congruence| | |].
    - destruct (initialise_cq p None (bare o) mem rate' S IB Logic.I Hr) as [K1 K2]; auto. destruct (K2 St) as (o' & E). exists o'. split; auto. now destruct (K1 o' E).
    - destruct (initialise_cq p None (bare o) mem rate' S IB Logic.I Hr) as [K1 K2]; auto. destruct (K2 St) as (o' & E). exists o'. split; auto. now destruct (K1 o' E).
    - destruct (initialise_mfcc p None (bare o) mem rate' S IB Logic.I Hr Ty) as (o' & E & I' & _). eauto. }
  destruct K as (o1 & E1 & I1). pose proof I as ((A1 & A2 & A3 & A4 & _) & W & _).
  pose proof I1 as ((B1 & B2 & B3 & B4 & _) & W1 & _ & (_ & R1 & _ & O1)).
  assert (H1 : factor_for (internal_rate p) rate' = OK 1).
  { destruct (factor_for_ok (internal_rate p) rate') as (f & Ef & Ff); [unfold internal_rate; destruct (p_type p); lia|lia|]. rewrite Ef. f_equal. eapply factor_1; eauto. }
  exists (with_dec o o1). split.
  { unfold internal_rate in H1. destruct (p_type p) eqn:Ty; [congruence| | |].
    - apply initialise_bare_cq; auto.
    - apply initialise_bare_cq; auto.
    - apply initialise_bare_mfcc; auto. }
  unfold with_dec. cbn [u_dec u_seg u_secs u_cq u_mfcc]. rewrite A4. splits; auto.
  - intros Ty. rewrite Ty in *. destruct O1 as (f' & m & _ & Q & _). eauto.
  - intros Ty. destruct (p_type p) eqn:Tp; [congruence| | |congruence].
    + destruct O1 as (f' & q1 & t1 & _ & Q1 & _ & N1 & _). exists q1. split; auto. lia.
    + destruct O1 as (f' & q1 & t1 & _ & Q1 & _ & N1 & _). exists q1. split; auto. lia.
Qed.

(** Initialised for a high rate, then for one that needs no reduction: blocks that are too short for the old rate,
    though long enough for the new one, are read beyond their end. *)
Theorem reinitialised_overrun p rate past o mem rate' mem' block : sane p -> p_type p <> Unknown -> life p (Some (rate, past)) o -> 1 <= rate' ->
  starts p rate' -> is_factor (internal_rate p) rate' 1 -> forall f, is_factor (internal_rate p) rate f -> f <> 1 ->
  window_samples p rate' <= zlen block -> zlen block + zlen block / f < window_samples p rate ->
  exists o', initialise o mem rate' = OK o' /\ extract o' mem' block = UB.
Proof.
  intros S T L Hr St F1 f F N B1 B2. destruct (reinitialised p rate past o mem rate' S T L Hr St F1) as (o' & E & D & W & Ty & R & Sc & M & C).
  exists o'. split; auto. destruct (open_dec p rate past o (life_inv p _ o S L) T) as (_ & f' & F' & H).
  assert (f' = f) by exact (is_factor_unique _ _ _ _ F' F). subst f'. pose proof (factor_pos _ _ _ F).
  destruct (Z.eqb_spec f 1); [congruence|]. destruct H as (d & Ed & Hd). rewrite Ed in D.
  assert (O : decimated (u_dec o') mem' block = UB) by (rewrite D; eapply overrun; eauto; lia).
  unfold extract. rewrite Ty. destruct (p_type p) eqn:Tp; [congruence| | |].
  - destruct C as (q & Q & Hn); [discriminate|]. unfold extract_constq. rewrite Q, Sc, R. change (get_windowsize (p_window p) rate') with (window_samples p rate').
    destruct (Z.ltb_spec (zlen block) (window_samples p rate')); [lia|]. rewrite window_kept by auto. cbn [bind]. rewrite O. reflexivity.
  - destruct C as (q & Q & Hn); [discriminate|]. unfold extract_constq. rewrite Q, Sc, R. change (get_windowsize (p_window p) rate') with (window_samples p rate').
    destruct (Z.ltb_spec (zlen block) (window_samples p rate')); [lia|]. rewrite window_kept by auto. cbn [bind]. rewrite O. reflexivity.
  - destruct M as (m & Q); [reflexivity|]. unfold extract_mfcc. rewrite Q, Sc, R. change (get_windowsize (p_window p) rate') with (window_samples p rate').
    destruct (Z.ltb_spec (zlen block) (window_samples p rate')); [lia|]. rewrite O. reflexivity.
Qed.
