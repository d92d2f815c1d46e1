(** The detection functions over any sequence of frames. *)
From Coq Require Import List ZArith Reals Lia Lra Bool.
From Verif.Base Require Import Imp Sums RealOps Loops Tables.
From Verif.Maths Require Import RealModel RealSpec RealProofs.
From Verif.Fft Require Import Cplx FftSpec FftrProofs.
From Verif.Windows Require Import WindowModel WindowSpec WindowProofs.
From Verif.Vocoder Require Import PvModel PvSpec PvProofs PvResults.
From Verif.Onset Require Import DetModel DetSpec DetProofs.
Import ListNotations.
Open Scope Z_scope.

Definition config_ok (c : dfconfig) : Prop :=
  2 <= c_frame c < 2 ^ 31 /\ c_frame c mod 2 = 0 /\ (c_whiten c = true -> c_floor c <> 0%R).

(** The sizes of the arrays allocated by the constructors. *)
Definition junk_ok (n : Z) (j : dfjunk) : Prop :=
  zlen (k1 j) = n / 2 /\ zlen (k2 j) = n / 2 /\ zlen (kc j) = n /\ zlen (kt j) = n /\ zlen (kr j) = n /\ zlen (ki j) = n /\
  zlen (kmag j) = n / 2 + 1 /\ zlen (ktheta j) = n / 2 + 1 /\ zlen (kun j) = n / 2 + 1 /\ zlen (kwin j) = n.

Section Run.
Variables (c : dfconfig) (M TH : nat -> Z -> R).
Hypothesis Cn : 2 <= c_frame c < 2 ^ 31 /\ c_frame c mod 2 = 0.
Hypothesis Cf : c_whiten c = true -> c_floor c <> 0%R.
Let n := c_frame c.
Let h := n / 2 + 1.
Let L := level c M.

Definition mag_kept (t : nat) (k : Z) : R :=
  if (c_type c =? 2) || (c_type c =? 4) then past L t 1 k else if c_type c =? 5 then (past L t 1 k * past L t 1 k)%R else 0%R.
Definition phase_kept (d t : nat) (k : Z) : R :=
  if (c_type c =? 3) || (c_type c =? 4) then past TH t d k else 0%R.
Definition peak_kept (t : nat) (k : Z) : R :=
  if c_whiten c then match t with O => 0%R | S t' => envelope (relax_of c) (floor_of c) (fun s => M s k) t' end else 0%R.

Definition det_state (t : nat) (o : dfun) : Prop :=
  d_type o = c_type c /\ d_n o = n /\ d_half o = h /\ d_rise o = c_rise c /\ d_whiten o = c_whiten c /\
  d_relax o = relax_of c /\ d_floor o = floor_of c /\
  d_mag_hist o = ztab h (mag_kept t) /\ d_phase_hist o = ztab h (phase_kept 1 t) /\ d_phase_old o = ztab h (phase_kept 2 t) /\
  d_peaks o = ztab h (peak_kept t) /\
  zlen (d_windowed o) = n /\ zlen (d_mag o) = h /\ zlen (d_theta o) = h /\ zlen (d_unwrapped o) = h /\
  d_window o = ztab n (hann n) /\ exists th un, pv_run n (c_step c) (d_pv o) th un.

Lemma relax_nonneg : (0 <= relax_of c)%R.
Proof. unfold relax_of. destruct (Rltb_spec (c_relax c) 0); lra. Qed.
Lemma floor_pos : c_whiten c = true -> (0 < floor_of c)%R.
Proof. intros W. pose proof (Cf W). unfold floor_of. destruct (Rltb_spec (c_floor c) 0); lra. Qed.
Lemma n_range : 2 <= n < 2 ^ 31 /\ n mod 2 = 0.
Proof. clear Cf. exact Cn. Qed.

Lemma past_S F t d k : past F (S t) (S d) k = past F t d k.
Proof. unfold past. destruct (Nat.ltb_spec (S t) (S d)), (Nat.ltb_spec t d); try lia; auto. Qed.
Lemma past_now F t k : past F t 0 k = F t k.
Proof. unfold past. cbn. now rewrite Nat.sub_0_r. Qed.

Lemma zeros_tab (m : Z) (f : Z -> R) : (forall k, 0 <= k < m -> f k = 0%R) -> repeat 0%R (Z.to_nat m) = ztab m f.
Proof.
  intros H. apply (zn_ext 0%R); [zl; lia|]. intros k Hk. zl. rewrite zn_repeat, zn_ztab by lia. symmetry. apply H. lia.
Qed.

Lemma df_new_ok j : junk_ok n j -> exists o, df_new c j = OK o /\ det_state 0 o.
Proof.
  clear Cf.
  intros (A1 & A2 & A3 & A4 & A5 & A6 & A7 & A8 & A9 & A10). destruct n_range as [N1 N2].
  unfold df_new. fold n. rewrite Z.quot_div_nonneg by lia. fold h.
  destruct (pv_constructed n (c_step c) (k1 j) (k2 j) (kc j) (kt j) (kr j) (ki j)) as (v & E); auto.
  rewrite E. ret. rewrite encache_cos by (try lia; discriminate). ret. eexists; split; [reflexivity|].
  unfold det_state; cbn [d_type d_n d_half d_rise d_whiten d_relax d_floor d_mag_hist d_phase_hist d_phase_old d_peaks d_windowed d_mag d_theta d_unwrapped d_window d_pv].
  splits; auto.
  - apply zeros_tab. intros. unfold mag_kept, past. cbn. destruct (_ || _); auto. destruct (_ =? _); lra.
  - apply zeros_tab. intros. unfold phase_kept, past. cbn. destruct (_ || _); auto.
  - apply zeros_tab. intros. unfold phase_kept, past. cbn. destruct (_ || _); auto.
  - apply zeros_tab. intros. unfold peak_kept. destruct (c_whiten c); auto.
  - apply ztab_ext. intros i Hi. cbn [shape]. unfold ck, hann. lra.
  - do 2 eexists. eapply pr_new; [..|exact E]; auto.
Qed.

(** The detection function proper. *)
Lemma h_nonneg : 0 <= h.
Proof. clear Cf. destruct n_range. unfold h. pose proof (Z.div_pos n 2). lia. Qed.

Lemma run_df_ok t o :
  d_type o = c_type c -> d_half o = h -> d_rise o = c_rise c ->
  d_mag o = ztab h (L t) -> d_theta o = ztab h (TH t) -> (forall k, 0 <= k < h -> (0 <= past L t 1 k)%R) ->
  d_mag_hist o = ztab h (mag_kept t) -> d_phase_hist o = ztab h (phase_kept 1 t) -> d_phase_old o = ztab h (phase_kept 2 t) ->
  exists v, run_df o = OK (set_hist o (ztab h (mag_kept (S t))) (ztab h (phase_kept 1 (S t))) (ztab h (phase_kept 2 (S t))), v) /\
    detects c M TH t v.
Proof.
  intros T H Ri Mg Ta Nn Mh Ph Po. pose proof h_nonneg as Hh. unfold run_df, detects. rewrite T, H, Ri, Mg, Ta, Mh, Ph, Po. fold n. fold h. fold L.
  assert (K : forall b, b = (c_type c =? 2) || (c_type c =? 4) -> b = false -> c_type c <> 5 ->
     ztab h (mag_kept t) = ztab h (mag_kept (S t))).
  { intros b -> B N5. apply ztab_ext. intros k Hk. unfold mag_kept. rewrite B. apply Z.eqb_neq in N5. now rewrite N5. }
  assert (K' : forall d, (c_type c =? 3) || (c_type c =? 4) = false -> ztab h (phase_kept d t) = ztab h (phase_kept d (S t))).
  { intros d B. apply ztab_ext. intros k Hk. unfold phase_kept. now rewrite B. }
  assert (Same : forall (s : dfun), d_mag_hist s = ztab h (mag_kept (S t)) -> d_phase_hist s = ztab h (phase_kept 1 (S t)) ->
     d_phase_old s = ztab h (phase_kept 2 (S t)) ->
     s = set_hist s (ztab h (mag_kept (S t))) (ztab h (phase_kept 1 (S t))) (ztab h (phase_kept 2 (S t)))).
  { intros s <- <- <-. now destruct s. }
  assert (G : forall d x, (c_type c =? 3) || (c_type c =? 4) = true -> phase_kept d t x = past TH t d x).
  { intros d x B. unfold phase_kept. now rewrite B. }
  destruct (Z.eqb_spec (c_type c) 1) as [E|N1].
  { rewrite hfc_ok by auto. ret. rewrite E. eexists. split.
    - do 2 f_equal. apply Same; [rewrite Mh; eapply K; eauto; rewrite E; auto; lia|rewrite Ph; apply K'; rewrite ?E; auto|rewrite Po; apply K'; rewrite ?E; auto].
    - apply rsum_ext. intros. ring. }
  destruct (Z.eqb_spec (c_type c) 2) as [E|N2].
  { rewrite specdiff_ok by auto. ret. rewrite E. eexists. split.
    - do 2 f_equal. f_equal; [|apply K'; now rewrite ?E|apply K'; now rewrite ?E]. apply ztab_ext. intros k Hk. unfold mag_kept. rewrite E. cbn [Z.eqb orb Pos.eqb].
      now rewrite past_S, past_now.
    - apply rsum_ext. intros k Hk. unfold mag_kept. rewrite E. cbn [Z.eqb orb Pos.eqb]. do 2 f_equal. ring. }
  destruct (Z.eqb_spec (c_type c) 3) as [E|N3].
  { rewrite phasedev_ok by auto. ret. rewrite E. eexists. split.
    - rewrite <- (K false) by (rewrite ?E; auto; lia).
      replace (ztab h (TH t)) with (ztab h (phase_kept 1 (S t))).
      2:{ apply ztab_ext. intros k Hk. unfold phase_kept. rewrite E. cbn [Z.eqb orb Pos.eqb]. now rewrite past_S, past_now. }
      replace (ztab h (phase_kept 1 t)) with (ztab h (phase_kept 2 (S t))); [reflexivity|].
      apply ztab_ext. intros k Hk. unfold phase_kept. rewrite E. cbn [Z.eqb orb Pos.eqb]. now rewrite past_S.
    - eexists; split; [|reflexivity]. intros k Hk. cbv beta. rewrite !G by (rewrite ?E; auto).
      replace (TH t k - (2 * past TH t 1 k - past TH t 2 k))%R with (TH t k - 2 * past TH t 1 k + past TH t 2 k)%R by ring. apply off_turn_princarg. }
  destruct (Z.eqb_spec (c_type c) 4) as [E|N4].
  { rewrite complexsd_ok by auto. ret. rewrite E. eexists. split.
    - do 2 f_equal. f_equal; [unfold mag_kept|unfold phase_kept]; apply ztab_ext; intros k Hk; rewrite E; cbn [Z.eqb orb Pos.eqb];
        rewrite past_S; rewrite ?past_now; auto.
    - apply rsum_ext. intros k Hk. cbv zeta. rewrite !G by (rewrite ?E; auto).
      replace (mag_kept t k) with (past L t 1 k) by (unfold mag_kept; rewrite E; auto).
      apply complex_apart. replace (TH t k - (2 * past TH t 1 k - past TH t 2 k))%R with (TH t k - 2 * past TH t 1 k + past TH t 2 k)%R by ring. apply princarg_spec. }
  destruct (Z.eqb_spec (c_type c) 5) as [E|N5].
  { rewrite broadband_ok by auto. ret. rewrite E. eexists. split.
    - do 2 f_equal. f_equal; [|apply K'; now rewrite ?E|apply K'; now rewrite ?E]. apply ztab_ext. intros k Hk. unfold mag_kept. rewrite E. cbn [Z.eqb orb Pos.eqb].
      now rewrite past_S, past_now.
    - apply rsum_ext. intros k Hk. unfold mag_kept. rewrite E. cbn [Z.eqb orb Pos.eqb]. specialize (Nn k Hk).
      set (p := past L t 1 k) in *. destruct (Rltb_spec 0 p) as [P|P].
      + destruct (Rltb_spec 0 (p * p)); [|nra]. cbn [andb]. now rewrite db_over_spec.
      + destruct (Rltb_spec 0 (p * p)); [nra|]. reflexivity. }
  exists 0%R. split.
  - do 2 f_equal. apply Same; [rewrite Mh; eapply K; eauto|rewrite Ph; apply K'|rewrite Po; apply K'];
      reflexivity.
  - destruct (c_type c) as [|p|p]; auto. do 3 (try destruct p as [p|p|]); auto; congruence.
Qed.

Lemma envelope_S t k : envelope (relax_of c) (floor_of c) (fun s => M s k) t = follow (relax_of c) (floor_of c)
  (match t with O => 0%R | S t' => envelope (relax_of c) (floor_of c) (fun s => M s k) t' end) (M t k).
Proof. destruct t; reflexivity. Qed.

Lemma envelope_pos t k : (0 < floor_of c)%R -> (0 < envelope (relax_of c) (floor_of c) (fun s => M s k) t)%R.
Proof. intros F. rewrite envelope_S. unfold follow. eapply Rlt_le_trans; [exact F|apply Rmax_l]. Qed.

Lemma level_nonneg t k : (0 <= M t k)%R -> (0 <= L t k)%R.
Proof.
  intros H. pose proof floor_pos as Fp. unfold L, level. destruct (c_whiten c) eqn:W; auto.
  pose proof (envelope_pos t k (Fp eq_refl)). apply Rmult_le_pos; auto. left. now apply Rinv_0_lt_compat.
Qed.

(** After the phase vocoder. *)
Lemma df_finish_ok t o win v mag theta un : det_state t o -> zlen win = n -> mag = ztab h (M t) -> theta = ztab h (TH t) ->
  zlen un = h -> (exists a b, pv_run n (c_step c) v a b) -> (forall s k, (s <= t)%nat -> 0 <= k < h -> (0 <= M s k)%R) ->
  exists o' x, df_finish o win (v, mag, theta, un) = OK (o', x) /\ det_state (S t) o' /\ detects c M TH t x /\
    d_mag o' = ztab h (L t) /\ d_unwrapped o' = un /\ d_pv o' = v.
Proof.
  intros (T1 & T2 & T3 & T4 & T5 & T6 & T7 & T8 & T9 & T10 & T11 & T12 & T13 & T14 & T15 & T16 & T17) Lw -> -> Lu Pv Nn.
  pose proof h_nonneg as Hh. unfold df_finish. rewrite T3, T5, T6, T7, T11.
  assert (W : (if c_whiten c then whiten h (relax_of c) (floor_of c) (ztab h (peak_kept t)) (ztab h (M t)) else OK (ztab h (peak_kept t), ztab h (M t)))
    = OK (ztab h (peak_kept (S t)), ztab h (L t))).
  { pose proof floor_pos as Fp. destruct (c_whiten c) eqn:Wh.
    - rewrite whiten_ok by (auto using relax_nonneg). do 2 f_equal; apply ztab_ext; intros k Hk.
      + unfold peak_kept. rewrite Wh. now rewrite envelope_S.
      + unfold L, level. rewrite Wh, envelope_S. unfold peak_kept. now rewrite Wh.
    - do 2 f_equal; apply ztab_ext; intros k Hk; unfold peak_kept, L, level; now rewrite Wh. }
  rewrite W. ret.
  match goal with |- context [run_df ?O] => destruct (run_df_ok t O) as (x & E & D); cbn; auto end.
  { intros k Hk. unfold past. destruct (Nat.ltb_spec t 1); [lra|]. apply level_nonneg. apply Nn; auto; lia. }
  rewrite E. eexists _, x. split; [reflexivity|]. unfold set_hist; cbn. splits; auto.
  unfold det_state; cbn. splits; auto; zl; lia.
Qed.

Lemma as_tab l f m : zlen l = m -> (forall k, 0 <= k < m -> zn 0%R l k = f k) -> l = ztab m f.
Proof. intros H E. apply (zn_ext 0%R); [zl; pose proof (zlen_nonneg l); lia|]. intros k Hk. rewrite zn_ztab by lia. apply E. lia. Qed.

(** One frame: the phase vocoder. *)
Lemma df_front_ok t o f : det_state t o -> frame_ok n f ->
  (forall k, 0 <= k <= n / 2 -> polar (spectrum_re n f k) (spectrum_im n f k) (M t k) (TH t k)) ->
  exists win v un, df_process o f = df_finish o win (v, ztab h (M t), ztab h (TH t), un) /\ zlen win = n /\ zlen un = h /\
    (exists a b, pv_run n (c_step c) v a b) /\ forall k, 0 <= k <= n / 2 -> same_angle (zn 0%R un k) (TH t k).
Proof.
  clear Cf.
  intros S F P. pose proof S as (T1 & T2 & T3 & T4 & T5 & T6 & T7 & T8 & T9 & T10 & T11 & T12 & T13 & T14 & T15 & T16 & th & un & U).
  destruct n_range as [N1 N2]. pose proof h_nonneg as Hh.
  destruct f as [x|re im]; cbn [df_process frame_ok spectrum_re spectrum_im] in *.
  - unfold df_time. rewrite T2. destruct (cut_ok (d_window o) n x (d_windowed o)) as (w & E & Lw & Pw & _); try lia.
    { rewrite T16. zl. lia. }
    rewrite E. ret.
    destruct (pv_time_frame n (c_step c) (d_pv o) th un w (d_mag o) (d_theta o) (d_unwrapped o) N1 N2 U) as (v & mag & theta & out & Ev & U' & K1 & K2 & K3 & V);
      try (fold h; lia).
    rewrite Ev. ret.
    assert (Q : forall k, 0 <= k <= n / 2 -> M t k = zn 0%R mag k /\ TH t k = zn 0%R theta k).
    { intros k Hk. destruct (V k Hk) as (V1 & _). eapply polar_unique; [exact (P k Hk)|].
      assert (X : forall j, 0 <= j < n -> zn 0%R w j = (zn 0 x j * hann n j)%R).
      { intros j Hj. rewrite Pw by auto. rewrite T16, zn_ztab by auto. reflexivity. }
      unfold dft_re, dft_im in *.
      rewrite (rsum_ext n _ (fun j => zn 0 w j * cos (angle n j k) + 0 * sin (angle n j k))%R) by (intros j Hj; now rewrite X).
      rewrite (rsum_ext n (fun j => 0 * cos (angle n j k) - zn 0 x j * hann n j * sin (angle n j k))%R
        (fun j => 0 * cos (angle n j k) - zn 0 w j * sin (angle n j k))%R) by (intros j Hj; now rewrite X).
      exact V1. }
    destruct K1 as (K1 & _), K2 as (K2 & _), K3 as (K3 & _).
    replace (ztab h (M t)) with mag. 2:{ apply as_tab; [lia|]. intros k Hk. symmetry. apply Q. unfold h in Hk. lia. }
    replace (ztab h (TH t)) with theta. 2:{ apply as_tab; [lia|]. intros k Hk. symmetry. apply Q. unfold h in Hk. lia. }
    exists w, v, out. splits; auto; try lia; eauto. intros k Hk. destruct (Q k Hk) as (_ & ->). apply (V k Hk).
  - unfold df_freq.
    destruct (pv_freq_frame n (c_step c) (d_pv o) th un re im (d_mag o) (d_theta o) (d_unwrapped o) N1 N2 U) as (v & mag & theta & out & Ev & U' & K1 & K2 & K3 & V);
      try (fold h; lia); try tauto.
    rewrite Ev. ret.
    assert (Q : forall k, 0 <= k <= n / 2 -> M t k = zn 0%R mag k /\ TH t k = zn 0%R theta k).
    { intros k Hk. destruct (V k Hk) as (V1 & _). eapply polar_unique; [exact (P k Hk)|exact V1]. }
    destruct K1 as (K1 & _), K2 as (K2 & _), K3 as (K3 & _).
    replace (ztab h (M t)) with mag. 2:{ apply as_tab; [lia|]. intros k Hk. symmetry. apply Q. unfold h in Hk. lia. }
    replace (ztab h (TH t)) with theta. 2:{ apply as_tab; [lia|]. intros k Hk. symmetry. apply Q. unfold h in Hk. lia. }
    exists (d_windowed o), v, out. splits; auto; try lia; eauto. intros k Hk. destruct (Q k Hk) as (_ & ->). apply (V k Hk).
Qed.

(** One frame. *)
Lemma df_process_ok t o f : det_state t o -> frame_ok n f ->
  (forall k, 0 <= k <= n / 2 -> polar (spectrum_re n f k) (spectrum_im n f k) (M t k) (TH t k)) ->
  (forall s k, (s < t)%nat -> 0 <= k < h -> (0 <= M s k)%R) ->
  exists o' x, df_process o f = OK (o', x) /\ det_state (S t) o' /\ detects c M TH t x /\ d_mag o' = ztab h (L t) /\
    forall k, 0 <= k <= n / 2 -> same_angle (zn 0%R (d_unwrapped o') k) (TH t k).
Proof.
  intros S F P Nn. destruct (df_front_ok t o f S F P) as (win & v & un & E & Lw & Lu & Pv & Sa).
  assert (Nn' : forall s k, (s <= t)%nat -> 0 <= k < h -> (0 <= M s k)%R).
  { intros s k Hs Hk. destruct (Nat.eq_dec s t) as [->|]; [|apply Nn; lia]. apply (P k). unfold h in Hk. lia. }
  destruct (df_finish_ok t o win v _ _ un S Lw eq_refl eq_refl Lu Pv Nn') as (o' & y & Ey & S' & D & Mg & Un & _).
  rewrite E. exists o', y. splits; auto. now rewrite Un.
Qed.

Lemma df_calls_ok fs : forall t o, det_state t o -> Forall (frame_ok n) fs ->
  (forall i f k, nth_error fs i = Some f -> 0 <= k <= n / 2 -> polar (spectrum_re n f k) (spectrum_im n f k) (M (t + i)%nat k) (TH (t + i)%nat k)) ->
  (forall s k, (s < t)%nat -> 0 <= k < h -> (0 <= M s k)%R) ->
  exists o' vs, df_calls o fs = OK (o', vs) /\ det_state (t + length fs) o' /\ length vs = length fs /\
    (forall i v, nth_error vs i = Some v -> detects c M TH (t + i) v) /\
    (fs <> [] -> d_mag o' = ztab h (L (t + length fs - 1)) /\
      forall k, 0 <= k <= n / 2 -> same_angle (zn 0%R (d_unwrapped o') k) (TH (t + length fs - 1)%nat k)).
Proof.
  induction fs as [|f fs IH]; intros t o S F P Nn; cbn [df_calls length].
  - exists o, []. splits; auto; try congruence.
    + now rewrite Nat.add_0_r.
    + intros [|i] v H; discriminate.
  - inversion F as [|? ? F1 F2]; subst.
    assert (P0 : forall k, 0 <= k <= n / 2 -> polar (spectrum_re n f k) (spectrum_im n f k) (M t k) (TH t k)).
    { intros k Hk. specialize (P 0%nat f k eq_refl Hk). now rewrite Nat.add_0_r in P. }
    destruct (df_process_ok t o f S F1 P0 Nn) as (o1 & x & E & S1 & D & Mg & Un). rewrite E. ret.
    destruct (IH (Datatypes.S t) o1 S1 F2) as (o' & vs & E2 & S2 & Ll & Dv & Last).
    + intros i g k Hi Hk. specialize (P (Datatypes.S i) g k Hi Hk). now rewrite Nat.add_succ_r in P.
    + intros s k Hs Hk. destruct (Nat.eq_dec s t) as [->|]; [|apply Nn; auto; lia]. apply (P0 k). unfold h in Hk. lia.
    + rewrite E2. ret. exists o', (x :: vs). splits; auto.
      * replace (t + Datatypes.S (length fs))%nat with (Datatypes.S t + length fs)%nat by lia. exact S2.
      * cbn. lia.
      * intros [|i] v H; cbn in H.
        -- injection H as <-. now rewrite Nat.add_0_r.
        -- rewrite Nat.add_succ_r. now apply Dv.
      * intros _. replace (t + Datatypes.S (length fs) - 1)%nat with (t + length fs)%nat by lia.
        destruct fs as [|g fs'].
        -- cbn in E2. injection E2 as <- <-. cbn [length]. rewrite Nat.add_0_r. auto.
        -- destruct Last as (A & B); [discriminate|]. cbn [length] in *.
           replace (Datatypes.S t + Datatypes.S (length fs') - 1)%nat with (t + Datatypes.S (length fs'))%nat in * by lia. auto.
Qed.

End Run.

(** *** What is exported *)
Theorem detection_values c j fs M TH : config_ok c -> junk_ok (c_frame c) j -> Forall (frame_ok (c_frame c)) fs ->
  polar_of (c_frame c) fs M TH ->
  exists o o' vs, df_new c j = OK o /\ df_calls o fs = OK (o', vs) /\ length vs = length fs /\
    (forall t v, nth_error vs t = Some v -> detects c M TH t v) /\
    (fs <> [] -> zlen (d_mag o') = c_frame c / 2 + 1 /\ forall k, 0 <= k <= c_frame c / 2 ->
       zn 0%R (d_mag o') k = level c M (length fs - 1) k /\ same_angle (zn 0%R (d_unwrapped o') k) (TH (length fs - 1)%nat k)).
Proof.
  intros C J F P. pose proof C as (Cn & Cm & Cf). destruct (df_new_ok c M TH (conj Cn Cm) j J) as (o & E & S).
  destruct (df_calls_ok c M TH (conj Cn Cm) Cf fs 0 o S F) as (o' & vs & E2 & S2 & Ll & D & Last).
  - intros i f k Hi Hk. now apply (P i f k).
  - intros s k Hs. lia.
  - exists o, o', vs. splits; auto. intros N. destruct (Last N) as (A & B). cbn [plus] in *.
    assert (0 <= c_frame c / 2 + 1) by (destruct C as (X & _); pose proof (Z.div_pos (c_frame c) 2); lia).
    split; [rewrite A; zl; lia|]. intros k Hk. split; [|auto]. rewrite A, zn_ztab by lia. reflexivity.
Qed.
