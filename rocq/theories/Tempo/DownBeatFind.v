(** findDownBeats. *)
From Coq Require Import List ZArith Reals Lia Lra Bool.
From Verif.Base Require Import Imp RealOps Sums Loops.
From Verif.Maths Require Import RealSpec RealModel RealProofs.
From Verif.Tempo Require Import DownBeatModel DownBeatSpec.
Import ListNotations.
Open Scope Z_scope.

Lemma EPS_pos : (0 < EPS)%R.
Proof.
  unfold EPS. assert (0 < 10 ^ 16)%R by (apply pow_lt; lra).
  apply Rdiv_lt_0_compat; auto. lra.
Qed.

(** *** The Jensen-Shannon divergence *)
Lemma ln_ge (y : R) : (0 < y -> 1 - / y <= ln y)%R.
Proof.
  intros H. assert (0 < / y)%R by now apply Rinv_0_lt_compat.
  pose proof (exp_ineq1_le (ln (/ y))) as G. rewrite exp_ln in G by auto. rewrite ln_Rinv in G by auto. lra.
Qed.

Lemma js_term (a b : R) : (0 < a -> 0 < b ->
  0 <= - ((a + b) / 2) * ln ((a + b) / 2) + / 2 * (a * ln a) + / 2 * (b * ln b) <= / 2 * (a + b) * ln 2)%R.
Proof.
  intros Ha Hb. set (s := ((a + b) / 2)%R). assert (Hs : (0 < s)%R) by (unfold s; lra).
  assert (E : forall c, (0 < c)%R -> (c - s <= c * ln c - c * ln s)%R).
  { intros c Hc. replace (c * ln c - c * ln s)%R with (c * ln (c / s))%R.
    - pose proof (ln_ge (c / s)). assert (0 < c / s)%R by now apply Rdiv_lt_0_compat.
      assert (c * (1 - / (c / s)) <= c * ln (c / s))%R by (apply Rmult_le_compat_l; lra).
      replace (c * (1 - / (c / s)))%R with (c - s)%R in H1 by (field; lra). lra.
    - unfold Rdiv. rewrite ln_mult, ln_Rinv; auto; [ring|now apply Rinv_0_lt_compat]. }
  assert (U : forall c, (0 < c <= a + b)%R -> (c * ln c - c * ln s <= c * ln 2)%R).
  { intros c Hc. assert (ln c <= ln 2 + ln s)%R.
    - rewrite <- ln_mult by lra. replace (2 * s)%R with (a + b)%R by (unfold s; field).
      destruct (Req_dec c (a + b)) as [->|]; [lra|]. left. apply ln_increasing; lra.
    - assert (c * ln c <= c * (ln 2 + ln s))%R by (apply Rmult_le_compat_l; lra). lra. }
  pose proof (E a Ha). pose proof (E b Hb). pose proof (U a ltac:(lra)). pose proof (U b ltac:(lra)).
  replace (- s * ln s)%R with (- / 2 * (a * ln s) - / 2 * (b * ln s))%R by (unfold s; field). 
  assert (s + s = a + b)%R by (unfold s; field). split; lra.
Qed.

Lemma js_sum n p q : jensen_shannon n p q =
  rsum n (fun i => - ((p i + q i) / 2) * ln ((p i + q i) / 2) + / 2 * (p i * ln (p i)) + / 2 * (q i * ln (q i)))%R.
Proof.
  unfold jensen_shannon, entropy.
  rewrite (rsum_ext n (fun i => - ((p i + q i) / 2) * _ + _ + _)%R
    (fun i => (/ 2 * (p i * ln (p i)) + / 2 * (q i * ln (q i))) - (p i + q i) / 2 * ln ((p i + q i) / 2))%R) by (intros; ring).
  rewrite rsum_minus, rsum_plus, !rsum_scal. field.
Qed.

Theorem js_range n p q : (forall i, 0 <= i < n -> (0 < p i /\ 0 < q i)%R) -> (rsum n p <= 1)%R -> (rsum n q <= 1)%R ->
  (0 <= jensen_shannon n p q <= ln 2)%R.
Proof.
  intros H Hp Hq. rewrite js_sum. split.
  - apply rsum_nonneg. intros i Hi. destruct (H i Hi). now apply js_term.
  - apply Rle_trans with (rsum n (fun i => (/ 2 * ln 2) * (p i + q i)))%R.
    + apply rsum_le. intros i Hi. destruct (H i Hi). pose proof (js_term (p i) (q i)). lra.
    + rewrite rsum_scal, rsum_plus. assert (0 < ln 2)%R by (rewrite <- ln_1; apply ln_increasing; lra). nra.
Qed.

Lemma distribution_pos n sp i : (forall k, 0 <= k < n -> (0 <= zn 0 sp k)%R) -> 0 <= i < n -> (0 < distribution n sp i)%R.
Proof.
  intros H Hi. unfold distribution. pose proof EPS_pos. pose proof (H i Hi).
  apply Rdiv_lt_0_compat; [lra|].
  pose proof (rsum_term n (fun k => zn 0 sp k + EPS)%R i) as G. cbv beta in G.
  specialize (G ltac:(intros k Hk; pose proof (H k Hk); lra) Hi). lra.
Qed.
Lemma distribution_sum n sp : (forall k, 0 <= k < n -> (0 <= zn 0 sp k)%R) -> (rsum n (distribution n sp) <= 1)%R.
Proof.
  intros H. destruct (Z.le_gt_cases n 0) as [Hn|Hn]; [rewrite rsum_0 by lia; lra|].
  unfold distribution. set (S := rsum n (fun k => zn 0 sp k + EPS)%R).
  assert (0 < S)%R.
  { pose proof EPS_pos. pose proof (rsum_term n (fun k => zn 0 sp k + EPS)%R 0) as G. cbv beta in G.
    specialize (G ltac:(intros k Hk; pose proof (H k Hk); lra) ltac:(lia)). pose proof (H 0 ltac:(lia)). fold S in G. lra. }
  rewrite (rsum_ext n _ (fun k => / S * (zn 0 sp k + EPS))%R) by (intros; unfold Rdiv; ring).
  rewrite rsum_scal. fold S. rewrite Rinv_l; lra.
Qed.

Lemma upd_twice {A} (l : list A) n (u v : A) : upd (upd l n u) n v = upd l n v.
Proof. revert n. induction l as [|h t IH]; intros [|n]; cbn; auto. now rewrite IH. Qed.

Lemma measureSpecDiff_ok old new : zlen new = zlen old ->
  (forall k, 0 <= k < zlen old -> (0 <= zn 0 old k)%R) -> (forall k, 0 <= k < zlen old -> (0 <= zn 0 new k)%R) ->
  measureSpecDiff old new = OK (spectral_change old new).
Proof.
  intros L Ho Hn. unfold measureSpecDiff, spectral_change. set (n := Z.min 512 (zlen old / 4)).
  pose proof (zlen_nonneg old) as L0. assert (N : 0 <= n <= zlen old).
  { unfold n. pose proof (Z.div_pos (zlen old) 4 ltac:(lia) ltac:(lia)).
    pose proof (Z.div_le_upper_bound (zlen old) 4 (zlen old) ltac:(lia) ltac:(lia)). lia. }
  clearbody n. cbv zeta.
  match goal with |- context [for_up 0 n ?F ?S] =>
    destruct (for_up_inv (fun i '((nw, od, sn, so) : list R * list R * R * R) =>
      zlen nw = zlen old /\ zlen od = zlen old /\
      (forall k, 0 <= k < zlen old -> zn 0%R nw k = (if k <? i then zn 0 new k + EPS else zn 0 new k)%R) /\
      (forall k, 0 <= k < zlen old -> zn 0%R od k = (if k <? i then zn 0 old k + EPS else zn 0 old k)%R) /\
      sn = rsum i (fun k => zn 0 new k + EPS)%R /\ so = rsum i (fun k => zn 0 old k + EPS)%R) 0 n F S)
    as ([[[nw od] sn] so] & E & L1 & L2 & V1 & V2 & -> & ->) end.
  - lia.
  - splits; auto; try (intros k Hk; zcase; reflexivity); now rewrite rsum_0 by lia.
  - intros i [[[nw od] sn] so] Hi (L1 & L2 & V1 & V2 & -> & ->).
    rewrite (aget_OK 0%R nw) by lia. cbn [bind]. rewrite aset_OK by lia. cbn [bind].
    rewrite (aget_OK 0%R od) by lia. cbn [bind]. rewrite aset_OK by lia. cbn [bind].
    rewrite (aget_OK 0%R) by (zl; lia). cbn [bind]. rewrite (aget_OK 0%R) by (zl; lia). cbn [bind].
    rewrite !zn_upd by lia. rewrite V1, V2 by lia. zcase. eexists; split; [reflexivity|]. cbv beta iota. splits; try (zl; lia).
    + intros k Hk. rewrite zn_upd by lia. zcase; subst; try rewrite V1 by lia; zcase; auto.
    + intros k Hk. rewrite zn_upd by lia. zcase; subst; try rewrite V2 by lia; zcase; auto.
    + now rewrite rsum_S by lia.
    + now rewrite rsum_S by lia.
  - rewrite E. cbn [bind]. clear E.
    match goal with |- context [for_up 0 n ?F ?S] =>
      destruct (for_up_inv (fun i '((nw', od', sd) : list R * list R * R) =>
        zlen nw' = zlen old /\ zlen od' = zlen old /\
        (forall k, i <= k < zlen old -> zn 0%R nw' k = zn 0%R nw k) /\
        (forall k, i <= k < zlen old -> zn 0%R od' k = zn 0%R od k) /\
        sd = rsum i (fun k => let p := distribution n old k in let q := distribution n new k in
          (- ((p + q) / 2) * ln ((p + q) / 2) + / 2 * (p * ln p) + / 2 * (q * ln q)))%R) 0 n F S)
      as ([[nw' od'] sd] & E & _ & _ & _ & _ & ->) end.
    + lia.
    + splits; auto.
    + intros i [[nw' od'] sd] Hi (L3 & L4 & V3 & V4 & ->).
      rewrite (aget_OK 0%R nw') by lia. cbn [bind]. rewrite aset_OK by lia. cbn [bind].
      rewrite (aget_OK 0%R od') by lia. cbn [bind]. rewrite aset_OK by lia. cbn [bind].
      rewrite (aget_OK 0%R (upd nw' _ _)) by (zl; lia). cbn [bind]. rewrite zn_upd by lia. 
      rewrite V3, V1 by lia. destruct (Z.eqb_spec i i); [|lia]. destruct (Z.ltb_spec i n); [|lia].
      fold (distribution n new i).
      pose proof (distribution_pos n new i ltac:(intros; apply Hn; lia) Hi) as P1.
      destruct (Reqb_spec (distribution n new i) 0); [lra|]. cbn [bind].
      rewrite (aget_OK 0%R (upd od' _ _)) by (zl; lia). cbn [bind]. rewrite zn_upd by lia. 
      rewrite V4, V2 by lia. destruct (Z.eqb_spec i i); [|lia]. destruct (Z.ltb_spec i n); [|lia].
      fold (distribution n old i).
      pose proof (distribution_pos n old i ltac:(intros; apply Ho; lia) Hi) as P2.
      destruct (Reqb_spec (distribution n old i) 0); [lra|]. cbn [bind].
      rewrite !(aget_OK 0%R (upd _ _ _)) by (zl; lia). cbn [bind].
      rewrite !zn_upd by lia. destruct (Z.eqb_spec i i); [|lia].
      eexists; split; [reflexivity|]. cbv beta iota. splits; try (zl; lia).
      * intros k Hk. rewrite zn_upd by lia. zcase. apply V3. lia.
      * intros k Hk. rewrite zn_upd by lia. zcase. apply V4. lia.
      * rewrite rsum_S by lia. cbv zeta.
        replace (/ 2 * distribution n old i + / 2 * distribution n new i)%R
          with ((distribution n old i + distribution n new i) / 2)%R by field. ring.
    + rewrite E. cbn [bind]. f_equal. symmetry. apply js_sum.
Qed.

Lemma spectral_change_range old new : zlen new = zlen old ->
  (forall k, 0 <= k < zlen old -> (0 <= zn 0 old k)%R) -> (forall k, 0 <= k < zlen old -> (0 <= zn 0 new k)%R) ->
  (0 <= spectral_change old new <= ln 2)%R.
Proof.
  intros L Ho Hn. unfold spectral_change. set (n := Z.min 512 (zlen old / 4)).
  pose proof (zlen_nonneg old) as L0. assert (N : 0 <= n <= zlen old).
  { unfold n. pose proof (Z.div_pos (zlen old) 4 ltac:(lia) ltac:(lia)).
    pose proof (Z.div_le_upper_bound (zlen old) 4 (zlen old) ltac:(lia) ltac:(lia)). lia. }
  apply js_range.
  - intros i Hi. split; apply distribution_pos; auto; intros; [apply Ho|apply Hn]; lia.
  - apply distribution_sum. intros; apply Ho; lia.
  - apply distribution_sum. intros; apply Hn; lia.
Qed.

Lemma Forall_zn {A} (P : A -> Prop) (z : A) l i : Forall P l -> 0 <= i < zlen l -> P (zn z l i).
Proof.
  intros H Hi. rewrite Forall_forall in H. apply H. unfold zn. destruct (Z.ltb_spec i 0); [lia|].
  apply nth_In. unfold zlen in Hi. lia.
Qed.
Lemma for_up_none {St} lo hi (f : Z -> St -> res St) s : hi <= lo -> for_up lo hi f s = OK s.
Proof. intros H. unfold for_up. now replace (Z.to_nat (hi - lo)) with 0%nat by lia. Qed.

(** *** The beats *)
Section Find.
  Variables (size inc factor : Z) (fft : list R -> list R * list R).
  Hypothesis Hsize : 0 <= size.
  Hypothesis Hfft : forall fr, zlen fr = size -> size / 2 <= zlen (fst (fft fr)) /\ size / 2 <= zlen (snd (fft fr)).
  Hypothesis Hinc : 0 <= inc.
  Hypothesis Hfactor : 1 <= factor.
  Local Notation spec audio beats := (beat_spectrum size inc factor fft audio beats).

  Lemma pos_ok b : (0 <= b)%R -> pos inc factor b = OK (sample_of inc factor b) /\ 0 <= sample_of inc factor b.
  Proof.
    intros Hb. unfold pos, sample_of. zcase. assert (0 <= b * IZR inc / IZR factor)%R.
    { apply IZR_le in Hinc, Hfactor. apply Rmult_le_pos; [apply Rmult_le_pos; auto|]. left. apply Rinv_0_lt_compat. lra. }
    destruct (Rleb_spec (b * IZR inc / IZR factor) (-1)); [lra|]. destruct (Rltb_spec (b * IZR inc / IZR factor) 0); [lra|].
    split; auto. rewrite <- (Zfloor_IZR 0). now apply Zfloor_le.
  Qed.

  Lemma beat_frame_ok audio fr start len : zlen fr = size -> 0 <= start -> 0 <= len -> (len = 0 \/ start + len <= zlen audio) ->
    beat_frame size audio fr start len = OK (windowed size audio start len).
  Proof.
    intros L Hs Hl Ha. unfold beat_frame.
    pose proof (for_up_set (Z.min len size) (fun j => v <- aget audio (start + j) ;;
      OK (v * (/ 2 * (1 - cos (2 * PI * (IZR j / IZR len))))))%R
      (fun j => zn 0 audio (start + j) * (/ 2 * (1 - cos (2 * PI * (IZR j / IZR len)))))%R fr) as E.
    rewrite (for_up_ext _ _ _ (fun j fr => v <- (v <- aget audio (start + j) ;;
      OK (v * (/ 2 * (1 - cos (2 * PI * (IZR j / IZR len)))))%R) ;; aset fr j v)).
    2: { intros j f Hj. now rewrite bind_assoc. }
    rewrite E; [|lia|intros j Hj; rewrite (aget_OK 0%R) by lia; reflexivity]. clear E. cbn [bind].
    set (fr1 := ztab _ _ ++ _). assert (L1 : zlen fr1 = size) by (unfold fr1; zl; lia).
    destruct (Z.le_gt_cases size len) as [G|G].
    - rewrite (for_up_none len size) by lia. f_equal. unfold fr1. rewrite skipn_zlen by lia. rewrite app_nil_r.
      unfold windowed. rewrite Z.min_r by lia. apply (zn_ext 0%R); [zl; lia|]. intros k Hk. zl.
      rewrite !zn_ztab by lia. zcase. unfold Rdiv. ring.
    - match goal with |- for_up len size ?F fr1 = _ =>
        destruct (for_up_inv (fun i f => zlen f = size /\ forall k, 0 <= k < size ->
          zn 0%R f k = if (len <=? k) && (k <? i) then 0%R else zn 0%R fr1 k) len size F fr1) as (f & E & Lf & V) end.
      + lia.
      + split; auto. intros k Hk. destruct (Z.leb_spec len k), (Z.ltb_spec k len); auto; lia.
      + intros i f Hi (Lf & V). rewrite aset_OK by lia. eexists; split; [reflexivity|]. split; [zl; lia|].
        intros k Hk. rewrite zn_upd by lia. rewrite V by lia. zcase; auto; lia.
      + rewrite E. f_equal. unfold windowed. apply (zn_ext 0%R); [zl; lia|]. intros k Hk. rewrite V by lia.
        rewrite zn_ztab by lia. unfold fr1. rewrite zn_app. zl. zcase; try lia; auto.
        rewrite zn_ztab by lia. unfold Rdiv. ring.
  Qed.

  Lemma peaks_ok d : adaptiveThreshold d = OK (peaks d).
  Proof.
    destruct (adaptiveThreshold_spec d) as (d' & E & L & V). rewrite E. f_equal. unfold peaks.
    pose proof (zlen_nonneg d). apply (zn_ext 0%R); [zl; lia|]. intros k Hk. rewrite zn_ztab by lia. apply V. lia.
  Qed.
  Lemma zlen_spec audio beats i : zlen (spec audio beats i) = size / 2.
  Proof.
    unfold beat_spectrum. destruct (fft _) as [re im]. unfold peaks. zl.
    pose proof (Z.div_pos size 2 Hsize ltac:(lia)). lia.
  Qed.
  Lemma spec_nonneg audio beats i k : 0 <= k < size / 2 -> (0 <= zn 0 (spec audio beats i) k)%R.
  Proof.
    intros Hk. unfold beat_spectrum. destruct (fft _) as [re im]. unfold peaks. rewrite zn_ztab by (zl; lia). apply Rmax_l.
  Qed.

  Lemma spectra_ok audio beats fr : zlen fr = size -> 1 <= zlen audio -> Forall (Rle 0) beats ->
    spectra size inc factor fft audio beats fr =
      OK (ztab (zlen beats - 2) (fun e => spectral_change (spec audio beats e) (spec audio beats (e + 1)))).
  Proof.
    intros L La Hb. unfold spectra. set (half := size / 2).
    assert (Hh : 0 <= half) by (apply Z.div_pos; lia).
    destruct (Z.le_gt_cases (zlen beats) 1) as [G|G].
    { rewrite (for_up_none 0 (zlen beats - 1)) by lia. cbn [bind]. do 1 f_equal. unfold ztab.
      replace (Z.to_nat (zlen beats - 2)) with 0%nat by lia. reflexivity. }
    match goal with |- context [for_up 0 (zlen beats - 1) ?F ?S] =>
      destruct (for_up_inv (fun i '((fr, old, sd) : list R * list R * list R) =>
        zlen fr = size /\ zlen old = half /\ (0 < i -> old = spec audio beats (i - 1)) /\
        sd = ztab (i - 1) (fun e => spectral_change (spec audio beats e) (spec audio beats (e + 1)))) 0 (zlen beats - 1) F S)
      as ([[fr' old] sd] & E & _ & _ & _ & ->) end.
    - lia.
    - splits; auto; try lia. zl. lia.
    - intros i [[fr' old] sd] Hi (L1 & L2 & V & ->).
      rewrite !(aget_OK 0%R) by lia. cbn [bind].
      assert (B0 : (0 <= zn 0 beats i)%R) by (apply Forall_zn; auto; lia).
      assert (B1 : (0 <= zn 0 beats (i + 1))%R) by (apply Forall_zn; auto; lia).
      destruct (pos_ok _ B0) as (P0 & Q0). destruct (pos_ok _ B1) as (P1 & Q1). rewrite P0, P1. cbn [bind].
      set (start := sample_of inc factor (zn 0%R beats i)) in *.
      set (stop := sample_of inc factor (zn 0%R beats (i + 1))) in *.
      set (stop' := Z.max start (Z.min stop (zlen audio - 1))).
      assert (ES : (let be := if zlen audio <=? stop then zlen audio - 1 else stop in if be <? start then start else be) = stop').
      { unfold stop'. cbv zeta. destruct (Z.leb_spec (zlen audio) stop); zcase; lia. }
      cbv zeta in ES |- *. rewrite ES. rewrite beat_frame_ok by (auto; lia). cbn [bind].
      assert (SP : spec audio beats i = let '(re, im) := fft (windowed size audio start (stop' - start)) in
        peaks (ztab half (fun j => sqrt (zn 0 re j * zn 0 re j + zn 0 im j * zn 0 im j))%R)) by reflexivity.
      destruct (Hfft (windowed size audio start (stop' - start))) as (F1 & F2); [unfold windowed; zl; lia|].
      destruct (fft (windowed size audio start (stop' - start))) as [re im]. cbn [fst snd] in F1, F2.
      match goal with |- context [for_up 0 half ?F (repeat 0%R ?m)] =>
        rewrite (for_up_tab half F (fun j => sqrt (zn 0 re j * zn 0 re j + zn 0 im j * zn 0 im j))%R) end.
      2: { zl. lia. }
      2: { intros j s Hj Ls _ _. rewrite !(aget_OK 0%R) by lia. reflexivity. }
      cbn [bind]. rewrite skipn_zlen by (zl; lia). rewrite app_nil_r. rewrite peaks_ok. rewrite <- SP. cbn [bind].
      assert (E2 : for_up 0 half (fun j old => v <- aget (spec audio beats i) j ;; aset old j v) old = OK (spec audio beats i)).
      { rewrite (for_up_set half _ (fun j => zn 0%R (spec audio beats i) j)).
        - f_equal. rewrite skipn_zlen by lia. rewrite app_nil_r. pose proof (zlen_spec audio beats i). apply (zn_ext 0%R); [zl; lia|].
          intros k Hk. zl. now rewrite zn_ztab by lia.
        - lia.
        - intros j Hj. apply aget_OK. rewrite zlen_spec. lia. }
      destruct (Z.ltb_spec 0 i) as [Hi0|Hi0].
      + rewrite V by lia. rewrite measureSpecDiff_ok.
        * cbn [bind]. rewrite <- V by lia. rewrite E2. cbn [bind]. eexists; split; [reflexivity|]. cbv beta iota.
          splits; auto.
          -- unfold windowed. zl. lia.
          -- apply zlen_spec.
          -- intros _. f_equal. lia.
          -- replace (i + 1 - 1) with (i - 1 + 1) by lia. rewrite ztab_snoc by lia. do 2 f_equal. rewrite V by lia. f_equal. f_equal. lia.
        * now rewrite !zlen_spec.
        * rewrite zlen_spec. intros; now apply spec_nonneg.
        * rewrite zlen_spec. intros; now apply spec_nonneg.
      + cbn [bind]. rewrite E2. cbn [bind]. eexists; split; [reflexivity|]. cbv beta iota.
        splits; auto.
        * unfold windowed. zl. lia.
        * apply zlen_spec.
        * intros _. f_equal. lia.
        * unfold ztab. replace (Z.to_nat (i - 1)) with 0%nat by lia. now replace (Z.to_nat (i + 1 - 1)) with 0%nat by lia.
    - rewrite E. cbn [bind]. do 2 f_equal. lia.
  Qed.

  (** Stepping from d by T below n. *)
  Lemma steps_iff d T n k : 1 <= T -> 0 <= k ->
    (k < (if n <=? d then 0 else (n - d + T - 1) / T) <-> d + k * T < n).
  Proof.
    intros HT Hk. destruct (Z.leb_spec n d).
    - split; intros; nia.
    - split; intros G.
      + assert (k + 1 <= (n - d + T - 1) / T) by lia.
        pose proof (Z.mul_div_le (n - d + T - 1) T ltac:(lia)). nia.
      + assert (k + 1 <= (n - d + T - 1) / T); [|lia]. apply Z.div_le_lower_bound; nia.
  Qed.
  Lemma steps_nonneg d T n : 1 <= T -> 0 <= (if n <=? d then 0 else (n - d + T - 1) / T).
  Proof. intros. zcase; [lia|]. apply Z.div_pos; lia. Qed.

  Lemma candidate_ok sd T b : 1 <= T -> 0 <= b < T -> candidate sd T b = OK (phase_strength sd T b).
  Proof.
    intros HT Hb. unfold candidate, phase_strength. set (n := zlen sd). assert (0 <= n) by apply zlen_nonneg.
    set (steps := if n <=? b - 1 then 0 else (n - (b - 1) + T - 1) / T).
    assert (HS : forall k, 0 <= k -> (k < steps <-> b - 1 + k * T < n)) by (intros; now apply steps_iff).
    assert (0 <= steps) by now apply steps_nonneg.
    set (first := if b =? 0 then T - 1 else b - 1).
    set (sk := if b =? 0 then 1 else 0).
    assert (F : first = b - 1 + sk * T) by (unfold first, sk; zcase; lia).
    assert (0 <= first) by (unfold first; zcase; lia).
    set (count := if n <=? first then 0 else (n - first - 1) / T + 1).
    assert (C : count = Z.max 0 (steps - sk)).
    { assert (C1 : forall k, 0 <= k -> (k < count <-> first + k * T < n)).
      { intros k Hk. rewrite <- (steps_iff first T n k) by lia. unfold count. zcase; [lia|].
        replace (n - first + T - 1) with (n - first - 1 + 1 * T) by lia. rewrite Z.div_add by lia. lia. }
      assert (0 <= count). { unfold count. zcase; [lia|]. pose proof (Z.div_pos (n - first - 1) T ltac:(lia) ltac:(lia)). lia. }
      destruct (Z.lt_trichotomy count (Z.max 0 (steps - sk))) as [G|[G|G]]; auto; exfalso.
      - assert (count + sk < steps) by lia. apply (HS (count + sk)) in H3; [|unfold sk in *; zcase; lia].
        assert (count < count); [|lia]. apply C1; nia.
      - pose proof (proj1 (C1 (Z.max 0 (steps - sk)) ltac:(lia)) G) as G1.
        assert (Z.max 0 (steps - sk) + sk < steps); [|lia]. apply HS; [unfold sk; zcase; lia|]. nia. }
    match goal with |- context [for_up 0 steps ?F ?S] =>
      destruct (for_up_inv (fun i '((c, cnt) : R * Z) => cnt = Z.max 0 (i - sk) /\
        c = (rsum (Z.max 0 (i - sk)) (fun k => zn 0 sd (first + k * T)%Z) / IZR T)%R) 0 steps F S) as ([c cnt] & E & -> & ->) end.
    - lia.
    - rewrite rsum_0 by (unfold sk; zcase; lia). split; [unfold sk; zcase; lia|]. unfold Rdiv. ring.
    - intros i [c cnt] Hi (-> & ->). destruct (Z.ltb_spec (b - 1 + i * T) 0) as [G|G].
      + eexists; split; [reflexivity|]. assert (i = 0) by nia. assert (b = 0) by nia. subst i. 
        replace (Z.max 0 (0 - sk)) with 0 by (unfold sk; zcase; lia).
        replace (Z.max 0 (0 + 1 - sk)) with 0 by (unfold sk; zcase; lia). auto.
      + pose proof (proj1 (HS i ltac:(lia)) ltac:(lia)) as Hi'.
        rewrite (aget_OK 0%R) by (fold n; lia). cbn [bind]. eexists; split; [reflexivity|].
        assert (sk <= i). { unfold sk. zcase; nia. }
        rewrite !Z.max_r by lia. split; [lia|]. replace (i + 1 - sk) with (i - sk + 1) by lia. rewrite rsum_S by lia.
        replace (first + (i - sk) * T) with (b - 1 + i * T) by lia. unfold Rdiv. ring.
    - rewrite E. cbn [bind]. rewrite <- C. f_equal. 
      assert (0 <= count) by lia. zcase; auto. rewrite rsum_0 by lia. unfold Rdiv. ring.
  Qed.

  Theorem findDownBeats_ok bpb audio beats fr db0 : zlen fr = size -> 1 <= zlen audio -> 0 <= bpb -> Forall (Rle 0) beats ->
    let T := if bpb =? 0 then 4 else bpb in
    exists d l sd, findDownBeats size inc factor fft bpb audio beats fr db0 = OK (db0 ++ l, sd) /\
      every_from d T (zlen beats) l /\ 0 <= d < T /\
      (forall b, 0 <= b < T -> (phase_strength sd T b <= phase_strength sd T d)%R) /\
      (forall b, 0 <= b < d -> (phase_strength sd T b < phase_strength sd T d)%R) /\
      zlen sd = Z.max 0 (zlen beats - 2) /\
      forall e, 0 <= e < zlen sd -> zn 0%R sd e = spectral_change (spec audio beats e) (spec audio beats (e + 1)).
  Proof.
    intros L La Hbpb Hb T. assert (HT : 1 <= T) by (unfold T; zcase; lia).
    unfold findDownBeats. destruct (Z.eqb_spec (zlen audio) 0); [lia|]. rewrite spectra_ok by auto. cbn [bind]. fold T.
    set (sd := ztab (zlen beats - 2) _). destruct (Z.ltb_spec T 0); [lia|].
    rewrite (for_up_set T (fun b => candidate sd T b) (phase_strength sd T)).
    2: { zl. lia. }
    2: { intros b Hb'. now apply candidate_ok. }
    cbn [bind]. rewrite skipn_zlen by (zl; lia). rewrite app_nil_r. zl.
    destruct (getMax_spec (ztab T (phase_strength sd T)) T) as (d & E & Hd & M1 & M2).
    { zl. lia. }
    rewrite Z.max_r by lia. rewrite E. cbn [bind].
    exists d, (ztab (if zlen beats <=? d then 0 else (zlen beats - d + T - 1) / T) (fun k => d + k * T)), sd.
    pose proof (steps_nonneg d T (zlen beats) HT) as SN. splits.
    - match goal with |- for_up 0 ?n ?F ?S = _ =>
        destruct (for_up_inv (fun i s => s = (db0 ++ ztab i (fun k => d + k * T), sd)) 0 n F S) as (s & E' & ->) end.
      + lia.
      + unfold ztab. cbn. now rewrite app_nil_r.
      + intros i s Hi ->. eexists; split; [reflexivity|]. rewrite ztab_snoc by lia. now rewrite app_assoc.
      + exact E'.
    - split.
      + intros k Hk. zl. rewrite Z.max_r by lia. now apply steps_iff.
      + intros k Hk. zl. now rewrite zn_ztab by lia.
    - lia.
    - lia.
    - intros b Hb'. specialize (M1 b Hb'). now rewrite !zn_ztab in M1 by lia.
    - intros b Hb'. specialize (M2 b Hb'). now rewrite !zn_ztab in M2 by lia.
    - unfold sd. zl. lia.
    - unfold sd. intros k. zl. intros Hk. now rewrite zn_ztab by lia.
  Qed.

  Theorem beatSD_range bpb audio beats fr db0 db sd : zlen fr = size -> 0 <= bpb -> Forall (Rle 0) beats ->
    findDownBeats size inc factor fft bpb audio beats fr db0 = OK (db, sd) -> Forall (fun x => 0 <= x <= ln 2)%R sd.
  Proof.
    intros L Hbpb Hb E. destruct (Z.eq_dec (zlen audio) 0) as [Z0|Z0].
    - unfold findDownBeats in E. rewrite Z0 in E. cbn in E. injection E as _ <-. constructor.
    - pose proof (zlen_nonneg audio).
      destruct (findDownBeats_ok bpb audio beats fr db0) as (d & l & sd' & E' & _ & _ & _ & _ & _ & V); auto; [lia|].
      rewrite E' in E. injection E as _ <-. apply Forall_forall. intros x Hx.
      apply (In_nth _ _ 0%R) in Hx as (k & Hk & <-).
      assert (Hz : 0 <= Z.of_nat k < zlen sd') by (unfold zlen; lia). specialize (V _ Hz). unfold zn in V.
      destruct (Z.ltb_spec (Z.of_nat k) 0); [lia|]. rewrite Nat2Z.id in V. rewrite V. 
      apply spectral_change_range; rewrite ?zlen_spec; auto; intros; now apply spec_nonneg.
  Qed.
End Find.
