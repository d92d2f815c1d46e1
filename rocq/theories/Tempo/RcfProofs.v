(** get_rcf and calculateBeatPeriod. *)
From Coq Require Import List ZArith Reals Lia Lra Bool.
From Verif.Base Require Import Imp Sums RealOps Arith Loops.
From Verif.Maths Require RealModel RealSpec RealProofs.
From Verif.Tempo Require Import BeatModel BeatProofs BeatReal PeriodModel PeriodSpec PeriodProofs.
Import ListNotations.
Open Scope Z_scope.
Local Notation Rn := (zn 0%R).
Local Notation lm := RealSpec.local_mean.

Lemma adaptive_ok d : RealModel.adaptiveThreshold d = OK (thresholded lm d).
Proof.
  destruct (RealProofs.adaptiveThreshold_spec d) as (d' & E & L & V). rewrite E. f_equal.
  pose proof (zlen_nonneg d). unfold thresholded. apply (zn_ext 0%R); [zl; lia|]. intros i Hi.
  rewrite zn_ztab by lia. apply V. lia.
Qed.
Lemma zlen_thresholded d : zlen (thresholded lm d) = zlen d.
Proof. pose proof (zlen_nonneg d). unfold thresholded. zl. lia. Qed.

Lemma acf_ok x : acf_of x = OK (ztab (zlen x) (autocorr x)).
Proof.
  pose proof (zlen_nonneg x). unfold acf_of.
  rewrite (for_up_tab (zlen x) _ (autocorr x)); [|zl; lia|].
  - now rewrite skipn_zlen, app_nil_r by (zl; lia).
  - intros lag s Hl Ls _ _.
    rewrite (for_up_fsum 0%R Rplus (zlen x - lag) _ (fun k => (Rn x k * Rn x (k + lag)%Z)%R)); [now ret|lia|].
    intros k acc Hk. rewrite !(aget_OK 0%R) by lia. now repeat ret.
Qed.

(** A loop that adds to one cell. *)
Lemma for_up_cell lo hi (body : Z -> list R -> res (list R)) (g : Z -> R) l c :
  lo <= hi -> 0 <= c < zlen l ->
  (forall i s, lo <= i < hi -> zlen s = zlen l -> (forall k, k <> c -> Rn s k = Rn l k) ->
     body i s = OK (upd s (Z.to_nat c) (Rn s c + g i)%R)) ->
  for_up lo hi body l = OK (upd l (Z.to_nat c) (Rn l c + rsum (hi - lo) (fun k => g (lo + k)%Z))%R).
Proof.
  intros Hh Hc HB.
  assert (UU : forall (s : list R) v w, zlen s = zlen l -> upd (upd s (Z.to_nat c) v) (Z.to_nat c) w = upd s (Z.to_nat c) w).
  { intros s v w Ls. apply (zn_ext 0%R); [zl; lia|]. intros k Hk. zl. rewrite !zn_upd by (zl; lia). zcase; auto. }
  destruct (for_up_inv (fun i s => s = upd l (Z.to_nat c) (Rn l c + rsum (i - lo) (fun k => g (lo + k)%Z))%R) lo hi body l)
    as (s & E & ->); auto.
  - rewrite rsum_0, Rplus_0_r by lia. apply (zn_ext 0%R); [zl; lia|]. intros k Hk. rewrite zn_upd by lia. zcase; subst; auto.
  - intros i s Hi ->. eexists. split.
    + apply HB; auto; [zl; lia|]. intros k Hk. destruct (Z.lt_ge_cases k 0); [now rewrite !zn_out by (zl; lia)|].
      rewrite zn_upd by lia. zcase; congruence || auto.
    + rewrite UU by auto. f_equal. rewrite zn_upd by lia. zcase.
      replace (i + 1 - lo) with (i - lo + 1) by lia. rewrite rsum_S by lia. replace (lo + (i - lo)) with i by lia. lra.
Qed.

Lemma comb_ok acf wv n : 0 <= n -> zlen wv = n -> 4 * n <= zlen acf ->
  comb acf wv (repeat 0%R (Z.to_nat n)) = OK (ztab n (comb_value (Rn acf) (Rn wv) n)).
Proof.
  intros Hn Lw La. unfold comb. set (z := repeat 0%R (Z.to_nat n)).
  assert (Lz : zlen z = n) by (unfold z; zl; lia). rewrite Lz.
  destruct (Z.lt_ge_cases n 2) as [Hs|Hs].
  { rewrite for_up_empty by lia. f_equal. apply (zn_ext 0%R); [zl; lia|]. intros k Hk. rewrite zn_ztab by lia.
    unfold z. rewrite zn_repeat. unfold comb_value. zcase; cbn [andb]; auto. }
  match goal with |- for_up 2 n ?F z = _ =>
    destruct (for_up_inv (fun i s => zlen s = n /\ forall k, 0 <= k < n ->
      Rn s k = if k <? i - 1 then comb_value (Rn acf) (Rn wv) n k else 0%R) 2 n F z) as (s & E & L & V) end.
  - lia.
  - split; auto. intros k Hk. unfold z. rewrite zn_repeat. zcase; auto. unfold comb_value. zcase; reflexivity.
  - intros i s Hi (L & V).
    rewrite (for_up_cell 1 5 _ (fun a => rsum (2 * a - 1) (fun b' =>
       (Rn acf (a * (i - 1 + 1) + (b' + 1 - a) - 1)%Z * Rn wv (i - 1)%Z / (2 * IZR a - 1))%R)) s (i - 1)); [|lia|lia|].
    + eexists; split; [reflexivity|]. split; [zl; lia|]. intros k Hk. rewrite zn_upd by lia. zcase; subst; try lia.
      * rewrite V by lia. zcase. unfold comb_value. zcase; cbn [andb]. rewrite Rplus_0_l. change (5 - 1) with 4.
        apply rsum_ext. intros a Ha. cbv zeta. replace (1 + a) with (a + 1) by lia. reflexivity.
      * rewrite V by lia. zcase; auto.
      * rewrite V by lia. zcase; auto.
    + intros a s' Ha Ls' Ks'.
      rewrite (for_up_cell (1 - a) a _ (fun b => (Rn acf (a * i + b - 1)%Z * Rn wv (i - 1)%Z / (2 * IZR a - 1))%R) s' (i - 1)); [|lia|lia|].
      * do 3 f_equal. replace (a - (1 - a)) with (2 * a - 1) by lia. apply rsum_ext. intros b Hb. do 3 f_equal. lia.
      * intros b s2 Hb Ls2 Ks2. rewrite (aget_OK 0%R) by lia. ret.
        rewrite (aget_OK 0%R) by nia. ret. rewrite (aget_OK 0%R) by lia. ret. now rewrite aset_OK by lia.
  - rewrite E. f_equal. apply (zn_ext 0%R); [zl; lia|]. intros k Hk. rewrite zn_ztab by lia. rewrite V by lia.
    zcase; auto. unfold comb_value. zcase; cbn [andb]; auto; lia.
Qed.

Lemma get_rcf_ok frame wv : 4 * zlen wv <= zlen frame ->
  get_rcf frame wv (repeat 0%R (Z.to_nat (zlen wv))) = OK (period_fit lm EPS wv frame).
Proof.
  intros HL. pose proof (zlen_nonneg wv). unfold get_rcf. rewrite adaptive_ok. ret. rewrite acf_ok. ret.
  rewrite comb_ok by (zl; rewrite ?zlen_thresholded; lia). ret. rewrite adaptive_ok. ret.
  assert (EC : ztab (zlen wv) (comb_value (Rn (ztab (zlen (thresholded lm frame)) (autocorr (thresholded lm frame)))) (Rn wv) (zlen wv))
    = ztab (zlen wv) (comb_value (autocorr (thresholded lm frame)) (Rn wv) (zlen wv))).
  { apply ztab_ext. intros i Hi. unfold comb_value. zcase; cbn [andb]; auto. apply rsum_ext. intros a Ha. cbv zeta.
    apply rsum_ext. intros b Hb. rewrite zn_ztab; auto. rewrite zlen_thresholded. nia. }
  rewrite EC. unfold period_fit. cbv zeta. set (u := thresholded lm (ztab _ _)).
  assert (Lu : zlen u = zlen wv) by (unfold u; rewrite zlen_thresholded; zl; lia). rewrite Lu.
  match goal with |- context [for_up 0 (zlen wv) ?F (u, 0%R)] =>
    destruct (for_up_inv (fun i s => zlen (fst s) = zlen wv /\ snd s = rsum i (fun k => (Rn u k + EPS)%R) /\
      forall k, 0 <= k < zlen wv -> Rn (fst s) k = if k <? i then (Rn u k + EPS)%R else Rn u k) 0 (zlen wv) F (u, 0%R))
      as ([r sm] & E & L & S & V) end.
  - lia.
  - cbn [fst snd]. splits; auto. intros k Hk. zcase; auto.
  - intros i [r sm] Hi (L & S & V). cbn [fst snd] in *. rewrite (aget_OK 0%R) by lia. ret. rewrite aset_OK by lia. ret.
    rewrite (aget_OK 0%R) by (zl; lia). ret. eexists; split; [reflexivity|]. cbn [fst snd]. splits; [zl; lia| |].
    + rewrite zn_upd by lia. zcase. rewrite V by lia. zcase. rewrite rsum_S by lia. now rewrite S.
    + intros k Hk. rewrite zn_upd by lia. rewrite !V by lia. zcase; auto; subst; auto; lia.
  - rewrite E. ret. cbn [fst snd] in *. rewrite L.
    rewrite (for_up_tab (zlen wv) _ (fun i => ((Rn u i + EPS) / (sm + EPS))%R)); [|lia|].
    + rewrite skipn_zlen, app_nil_r by lia. unfold floor_normalised. rewrite Lu, S. reflexivity.
    + intros i s Hi Ls Ks _. rewrite (aget_OK 0%R) by lia. ret. rewrite Ks, V by lia. zcase. reflexivity.
Qed.

Lemma period_fit_pos wv frame : 1 <= zlen wv -> zlen (period_fit lm EPS wv frame) = zlen wv /\
  forall i, 0 <= i < zlen wv -> (0 < Rn (period_fit lm EPS wv frame) i)%R.
Proof.
  intros Hw. unfold period_fit. cbv zeta. set (u := ztab _ _).
  assert (Lu : zlen (thresholded lm u) = zlen wv) by (rewrite zlen_thresholded; unfold u; zl; lia).
  unfold floor_normalised. rewrite Lu. split; [zl; lia|]. intros i Hi. rewrite zn_ztab by lia.
  pose proof EPS_pos.
  assert (P : forall k, 0 <= k < zlen wv -> (0 < Rn (thresholded lm u) k + EPS)%R).
  { intros k Hk. unfold thresholded. rewrite zn_ztab by (rewrite zlen_thresholded in Lu; lia). pose proof (Rmax_l 0 (Rn u k - lm u k)). lra. }
  apply Rmult_lt_0_compat; [now apply P|]. apply Rinv_0_lt_compat.
  assert (0 <= rsum (zlen wv) (fun i => (Rn (thresholded lm u) i + EPS)%R))%R by (apply rsum_nonneg; intros; apply Rlt_le; auto).
  lra.
Qed.

(** *** calculateBeatPeriod *)
Lemma weight_len t c : zlen (weight_vec t c) = 128.
Proof. unfold weight_vec. rewrite zlen_ztab. reflexivity. Qed.
Lemma rayparam_pos t : (0 < t)%R -> (0 < rayparam t)%R.
Proof. intros H. unfold rayparam. apply Rdiv_lt_0_compat; auto. apply IZR_lt. reflexivity. Qed.
Lemma weight_pos t c i : (0 < t)%R -> 1 <= i < 128 -> (0 < Rn (weight_vec t c) i)%R.
Proof.
  intros Ht Hi. unfold weight_vec. rewrite zn_ztab by lia. destruct c; [apply exp_pos|].
  apply Rmult_lt_0_compat; [|apply exp_pos]. apply Rdiv_lt_0_compat; [apply IZR_lt; lia|].
  apply pow_lt, rayparam_pos, Ht.
Qed.
Lemma weight_nonneg t c i : (0 < t)%R -> 0 <= i < 128 -> (0 <= Rn (weight_vec t c) i)%R.
Proof.
  intros Ht Hi. destruct (Z.eq_dec i 0) as [->|]; [|apply Rlt_le, weight_pos; auto; lia].
  unfold weight_vec. rewrite zn_ztab by lia. destruct c; [apply Rlt_le, exp_pos|].
  unfold Rdiv. rewrite !Rmult_0_l. lra.
Qed.

Lemma n_frames_spec n : 0 <= n -> 0 <= n_frames n /\ (forall i, 0 <= i -> (i < n_frames n <-> i * 128 + 512 < n)) /\ 128 * n_frames n <= n.
Proof.
  intros Hn. unfold n_frames. destruct (Z.leb_spec n 512).
  - splits; try (intros; lia).
  - pose proof (Z.div_mod (n - 512 + 127) 128 ltac:(lia)). pose proof (Z.mod_pos_bound (n - 512 + 127) 128 ltac:(lia)).
    set (k := (n - 512 + 127) / 128) in *. splits; try (intros; lia).
Qed.

Lemma frames_ok df wv : zlen wv = 128 ->
  for_up 0 (n_frames (zlen df)) (fun c rcfmat =>
    let i := c * 128 in
    dfframe <- for_up 0 512 (fun k fr => v <- aget df (i + k) ;; aset fr k v) (repeat 0%R 512) ;;
    rcf <- get_rcf dfframe wv (repeat 0%R 128) ;;
    OK (rcfmat ++ [rcf])) []
  = OK (ztab (n_frames (zlen df)) (fun c => period_fit lm EPS wv (df_frame df c))).
Proof.
  intros Lw. destruct (n_frames_spec (zlen df) (zlen_nonneg df)) as (N0 & NF & _).
  match goal with |- for_up 0 ?n ?F ?S = _ =>
    destruct (for_up_inv (fun c s => s = ztab c (fun c => period_fit lm EPS wv (df_frame df c))) 0 n F S) as (s & E & ->) end; auto.
  intros c s Hc ->. cbv zeta. specialize (NF c ltac:(lia)).
  rewrite (for_up_tab 512 _ (fun k => Rn df (c * 128 + k))); [|rewrite zlen_repeat; lia|].
  - ret. rewrite skipn_zlen, app_nil_r by (rewrite zlen_repeat; lia). fold (df_frame df c).
    assert (L : zlen (df_frame df c) = 512) by (unfold df_frame; rewrite zlen_ztab; reflexivity).
    replace (repeat 0%R 128) with (repeat 0%R (Z.to_nat (zlen wv))) by (rewrite Lw; reflexivity).
    rewrite get_rcf_ok by lia. ret. eexists; split; [reflexivity|]. now rewrite ztab_snoc by lia.
  - intros k s Hk Ls _ _. rewrite (aget_OK 0%R) by lia. now ret.
Qed.

Lemma score_pos w fit ch q n : (forall t, 0 <= t <= Z.of_nat n -> (0 < fit t (q t))%R) -> (0 < w (q 0%Z))%R ->
  (forall t, 0 <= t < Z.of_nat n -> (0 < ch (q t) (q (t + 1)%Z))%R) -> (0 < path_score w fit ch q n)%R.
Proof.
  intros HF HW. induction n as [|n IH]; intros HC; cbn [path_score].
  - apply Rmult_lt_0_compat; auto. apply HF. lia.
  - apply Rmult_lt_0_compat.
    + apply IH; intros; [apply HF|apply HC]; lia.
    + apply Rmult_lt_0_compat; [|apply HF; lia]. replace (Z.of_nat (S n)) with (Z.of_nat n + 1) by lia. apply HC. lia.
Qed.
Lemma score_change w fit ch q n : path_score w fit ch q n <> 0%R ->
  forall t, 0 <= t < Z.of_nat n -> ch (q t) (q (t + 1)) <> 0%R.
Proof.
  induction n as [|n IH]; intros H t Ht; [lia|]. cbn [path_score] in H.
  destruct (Z.eq_dec t (Z.of_nat n)) as [->|].
  - replace (Z.of_nat n + 1) with (Z.of_nat (S n)) by lia. intros E. rewrite E in H. apply H. ring.
  - apply IH; [|lia]. intros E. rewrite E in H. apply H. ring.
Qed.
Lemma tempo_change_range p p' : tempo_change 128 p p' <> 0%R -> 20 <= p < 108 /\ 20 <= p' < 108.
Proof. unfold tempo_change. zcase; cbn [andb]; intros HH; try lia; congruence. Qed.

Theorem beat_period_ok factor df bp tempi tempo constrain :
  let T := n_frames (zlen df) in
  let wv := weight_vec tempo constrain in
  let score q := path_score (Rn wv) (fun t j => Rn (period_fit lm EPS wv (df_frame df t)) j) (tempo_change 128) q (Z.to_nat (T - 1)) in
  (0 < tempo)%R -> 2 <= T -> 128 * T <= zlen bp ->
  exists path, zlen path = T /\ Forall (fun k => 20 <= k < 108) path /\
    calculateBeatPeriod factor df bp tempi tempo constrain =
      OK (ztab (zlen bp) (period_at path), tempi ++ ztab (zlen bp) (fun k => (factor / period_at path k)%R)) /\
    forall q, (forall t, 0 <= q t < 128) -> (score q <= score (zn 0%Z path))%R.
Proof.
  intros T wv score Ht HT HB. unfold calculateBeatPeriod. cbv zeta. fold wv.
  rewrite frames_ok by apply weight_len. ret. fold T. set (rm := ztab T _).
  assert (Lr : zlen rm = T) by (unfold rm; zl; lia).
  assert (Lw : zlen wv = 128) by apply weight_len.
  assert (RR : forall t, 0 <= t < T -> zn [] rm t = period_fit lm EPS wv (df_frame df t)).
  { intros t Hi. unfold rm. now rewrite zn_ztab. }
  destruct (viterbi_best factor 128 rm wv bp tempi) as (path & P1 & P2 & P3 & P4); try lia.
  - apply Forall_forall. intros r Hr. unfold rm, ztab in Hr. apply in_map_iff in Hr as (k & <- & _).
    destruct (period_fit_pos wv (df_frame df (Z.of_nat k)) ltac:(lia)) as [-> _]. exact Lw.
  - intros j Hj. apply weight_nonneg; auto.
  - intros t j Hi Hj. rewrite RR by lia. apply Rlt_le, period_fit_pos; lia.
  - rewrite Lr in *. rewrite Lw in *.
    assert (SE : forall q, path_score (Rn wv) (fun t j => Rn (zn [] rm t) j) (tempo_change 128) q (Z.to_nat (T - 1)) = score q).
    { intros q. unfold score. assert (G : forall n, (Z.of_nat n < T) ->
        path_score (Rn wv) (fun t j => Rn (zn [] rm t) j) (tempo_change 128) q n =
        path_score (Rn wv) (fun t j => Rn (period_fit lm EPS wv (df_frame df t)) j) (tempo_change 128) q n).
      { induction n as [|n IH]; intros Hn; cbn [path_score]; [now rewrite RR by lia|]. rewrite IH by lia. now rewrite RR by lia. }
      apply G. lia. }
    assert (OPT : forall q, (forall t, 0 <= q t < 128) -> (score q <= score (zn 0%Z path))%R).
    { intros q Hq. rewrite <- !SE. now apply P4. }
    exists path. splits; auto.
    assert (SP : (0 < score (fun _ => 20%Z))%R).
    { apply score_pos.
      - intros t Hi. apply period_fit_pos; lia.
      - apply weight_pos; auto; lia.
      - intros t Hi. apply exp_pos. }
    specialize (OPT (fun _ => 20) ltac:(intros; lia)).
    assert (NZ : score (zn 0 path) <> 0%R) by lra.
    pose proof (score_change _ _ _ _ _ NZ) as CH.
    apply Forall_forall. intros x Hx. apply (In_nth _ _ 0) in Hx as (n & Hn & <-).
    replace (nth n path 0) with (zn 0 path (Z.of_nat n)) by (unfold zn; destruct (Z.ltb_spec (Z.of_nat n) 0); [lia|]; now rewrite Nat2Z.id).
    unfold zlen in P1.
    destruct (Z.eq_dec (Z.of_nat n) (T - 1)) as [->|NE].
    + specialize (CH (T - 2) ltac:(lia)). apply tempo_change_range in CH. replace (T - 2 + 1) with (T - 1) in CH by lia. tauto.
    + specialize (CH (Z.of_nat n) ltac:(lia)). apply tempo_change_range in CH. tauto.
Qed.

(** Too short for two frames: nothing is done. *)
Theorem beat_period_short factor df bp tempi tempo constrain :
  zlen df <= 640 -> calculateBeatPeriod factor df bp tempi tempo constrain = OK (bp, tempi).
Proof.
  intros H. unfold calculateBeatPeriod. cbv zeta. rewrite frames_ok by apply weight_len. ret.
  unfold viterbi_decode. destruct (n_frames_spec (zlen df) (zlen_nonneg df)) as (N0 & NF & _).
  assert (n_frames (zlen df) < 2). { destruct (Z.lt_ge_cases (n_frames (zlen df)) 2); auto. specialize (NF 1 ltac:(lia)). lia. }
  rewrite zlen_ztab. zcase; auto.
Qed.

(** The two stages together: beats from the estimated periods. *)
Theorem beats_of_periods factor df (tempo : R) constrain tight alpha :
  let bp0 := repeat 0%R (length df) in
  640 < zlen df -> (0 < tempo)%R ->
  exists bp tempi beats, calculateBeatPeriod factor df bp0 [] tempo constrain = OK (bp, tempi) /\
    calculateBeats Rarith (wtR tight) alpha df bp [] = OK beats /\
    BeatSpec.increasing beats /\ BeatSpec.within 0 (zlen df) beats /\ beats <> [].
Proof.
  intros bp0 HL Ht. assert (Lb : zlen bp0 = zlen df) by (unfold bp0; rewrite zlen_repeat; reflexivity).
  destruct (n_frames_spec (zlen df) (zlen_nonneg df)) as (N0 & NF & NB).
  assert (T2 : 2 <= n_frames (zlen df)). { specialize (NF 1 ltac:(lia)). lia. }
  destruct (beat_period_ok factor df bp0 [] tempo constrain) as (path & P1 & P2 & P3 & _); auto; try lia.
  rewrite P3. do 2 eexists.
  assert (PR : forall k, 0 <= k -> (20 <= period_at path k < 108)%R).
  { intros k Hk. unfold period_at. pose proof (Z.div_pos k 128 Hk ltac:(lia)).
    pose proof (In_range (fun k => 20 <= k < 108) path (Z.min (k / 128) (zlen path - 1)) P2 ltac:(lia)) as R. cbn beta in R.
    split; [apply IZR_le; lia|apply IZR_lt; lia]. }
  destruct (beats_ok Rarith (wtR tight) alpha df (ztab (zlen bp0) (period_at path)) []) as (new & E & I1 & I2 & I3).
  - zl. lia.
  - intros i Hi. rewrite zlen_ztab in Hi. rewrite zn_ztab by lia. specialize (PR i ltac:(lia)). lra.
  - rewrite zlen_ztab. rewrite zn_ztab by lia. specialize (PR (Z.max 0 (zlen bp0) - 1) ltac:(lia)).
    assert (108 <= IZR (zlen df))%R by (apply IZR_le; lia). lra.
  - exists new. splits; auto. apply I3. destruct df; [cbn in HL; lia|discriminate].
Qed.
