(** Proofs about the mel-frequency cepstral coefficients. *)
From Coq Require Import List ZArith Reals Lia Lra Bool.
From Verif.Base Require Import Imp Sums RealOps Loops Tables Matrix.
From Verif.Measures Require Import MeasModel.
From Verif.Fft Require Import Cplx FftSpec FftrModel FftResults DctMath.
From Verif.Windows Require Import WindowModel WindowSpec WindowProofs.
From Verif.Onset Require Import DetProofs.
From Verif.Tonal Require Import TonalProofs.
From Verif.Mfcc Require Import MfccModel MfccSpec.
Import ListNotations.
Open Scope Z_scope.

(** *** The corner frequencies *)
Lemma ratio_up_pow n : (ratio_up n = 866.66666652 * 1.0711703 ^ n)%R.
Proof. induction n as [|n IH]; cbn [ratio_up pow]; [ring|]. rewrite IH. ring. Qed.

Lemma corner_lt i : 0 <= i -> (corner i < corner (i + 1))%R.
Proof.
  intros H. unfold corner. destruct (Z.leb_spec i 12), (Z.leb_spec (i + 1) 12); try lia.
  - rewrite plus_IZR. lra.
  - replace i with 12 by lia. change (Z.to_nat (12 + 1 - 12)) with 1%nat. cbn [ratio_up]. lra.
  - replace (Z.to_nat (i + 1 - 12)) with (S (Z.to_nat (i - 12))) by lia. cbn [ratio_up].
    assert (0 < ratio_up (Z.to_nat (i - 12)))%R by (rewrite ratio_up_pow; apply Rmult_lt_0_compat; [lra|apply pow_lt; lra]). lra.
Qed.
Lemma corner_mono i j : 0 <= i < j -> (corner i < corner j)%R.
Proof.
  intros H. replace j with (i + 1 + Z.of_nat (Z.to_nat (j - i - 1))) by lia. generalize (Z.to_nat (j - i - 1)) as n.
  induction n as [|n IH]; [rewrite Z.add_0_r; apply corner_lt; lia|].
  eapply Rlt_trans; [apply IH|]. replace (i + 1 + Z.of_nat (S n)) with (i + 1 + Z.of_nat n + 1) by lia. apply corner_lt. lia.
Qed.

Lemma freqs_ok total : 11 <= total -> mel_freqs total = OK (ztab (total + 2) corner).
Proof.
  intros H. unfold mel_freqs, linearFilters. rewrite repeat_tab by lia. set (n := total + 2).
  set (lin := fun i => (lowestFrequency + IZR i * linearSpacing)%R).
  pose (S := fun i => ztab n (fun k => if k <? i then lin k else 0%R)).
  replace (ztab n (fun _ => 0%R)) with (S 0) by (apply ztab_ext; intros; zcase; auto).
  rewrite (for_up_path S 0 13); [|lia|]. 2:{ intros i Hi. unfold S. tabs. f_equal. same_tab. }
  cbn [bind].
  pose (T := fun i => ztab n (fun k => if k <? i then corner k else 0%R)).
  assert (L : forall k, k < 13 -> lin k = corner k).
  { intros k Hk. unfold lin, corner, lowestFrequency, linearSpacing. destruct (Z.leb_spec k 12); [reflexivity|lia]. }
  replace (S 13) with (T 13) by (apply ztab_ext; intros; zcase; auto; symmetry; now apply L).
  replace (ztab n corner) with (T n) by (apply ztab_ext; intros; zcase; auto).
  apply (for_up_path T 13 n); [lia|]. intros i Hi. unfold T. tabs. simpl (13 - 1).
  destruct (Z.ltb_spec 12 i); [|lia]. f_equal. same_tab.
  unfold corner, logSpacing. replace (12 <=? 12) with true by reflexivity. destruct (Z.leb_spec i 12); [lia|]. rewrite ratio_up_pow.
  replace (i - 13 + 1) with (i - 12) by lia. f_equal. lra.
Qed.

Lemma copy_ok m f from n : 0 <= from -> 0 <= n -> from + n <= m -> copy_from (ztab m f) from n = OK (ztab n (fun i => f (from + i))).
Proof.
  intros H0 H1 H2. unfold copy_from. rewrite repeat_tab by lia. set (g := fun i => f (from + i)).
  pose (S := fun i => ztab n (fun k => if k <? i then g k else 0%R)).
  replace (ztab n g) with (S n) by (apply ztab_ext; intros; zcase; auto).
  replace (ztab n (fun _ => 0%R)) with (S 0) by (apply ztab_ext; intros; zcase; auto).
  apply (for_up_path S 0 n); [lia|]. intros i Hi. unfold S. tabs. f_equal. same_tab.
Qed.

Lemma triangle_weight a b c f : (a < b < c)%R -> mel_weight f a b c (2 / (c - a)) = triangle a b c f.
Proof.
  intros H. unfold mel_weight, triangle.
  assert (H1 : (0 < b - a)%R) by lra. assert (H2 : (0 < c - b)%R) by lra. assert (H3 : (0 < c - a)%R) by lra.
  set (u := ((f - a) / (b - a))%R). set (v := ((c - f) / (c - b))%R).
  assert (Eu : (f = a + u * (b - a))%R) by (unfold u; field; lra).
  assert (Ev : (f = c - v * (c - b))%R) by (unfold v; field; lra).
  replace (2 / (c - a) * (f - a) / (b - a))%R with (2 / (c - a) * u)%R by (unfold u; field; lra).
  replace (2 / (c - a) * (c - f) / (c - b))%R with (2 / (c - a) * v)%R by (unfold v; field; lra).
  clearbody u v. set (h := (2 / (c - a))%R). clearbody h.
  destruct (Rle_lt_dec f a) as [A|A]; [|destruct (Rle_lt_dec f b) as [B|B]; [|destruct (Rle_lt_dec c f) as [C|C]]].
  - assert (u <= 0)%R by nra. assert (1 <= v)%R by nra. rewrite Rmin_left, Rmax_left by lra.
    destruct (Rltb_spec a f), (Rltb_spec b f); cbn [andb]; lra.
  - assert (0 < u <= 1)%R by nra. assert (1 <= v)%R by nra. rewrite Rmin_left, Rmax_right by lra.
    destruct (Rltb_spec a f), (Rleb_spec f b), (Rltb_spec b f); cbn [andb]; lra.
  - assert (1 <= u)%R by nra. assert (v <= 0)%R by nra. rewrite Rmin_right, Rmax_left by lra.
    destruct (Rltb_spec a f), (Rleb_spec f b), (Rltb_spec b f), (Rltb_spec f c); cbn [andb]; lra.
  - assert (1 <= u)%R by nra. assert (0 < v <= 1)%R by nra. rewrite Rmin_right, Rmax_right by lra.
    destruct (Rltb_spec a f), (Rleb_spec f b), (Rltb_spec b f), (Rltb_spec f c); cbn [andb]; lra.
Qed.

Lemma fill2_ok {A} n m (F g : Z -> Z -> A) (e : Z -> Z -> res A) : 0 <= n -> 0 <= m ->
  (forall i j, 0 <= i < n -> 0 <= j < m -> e i j = OK (F i j)) ->
  for_up 0 n (fun i w => for_up 0 m (fun j w => v <- e i j ;; mput w i j v) w) (tab2 n m g) = OK (tab2 n m F).
Proof.
  intros Hn Hm E. pose (S := fun i => tab2 n m (fun x y => if x <? i then F x y else g x y)).
  replace (tab2 n m F) with (S n) by (apply tab2_ext; intros; zcase; auto).
  replace (tab2 n m g) with (S 0) by (apply tab2_ext; intros; zcase; auto).
  apply (for_up_path S 0 n); [lia|]. intros i Hi.
  pose (T := fun j => tab2 n m (fun x y => if x <? i then F x y else if (x =? i) && (y <? j) then F x y else g x y)).
  replace (S i) with (T 0) by (apply tab2_ext; intros; zcase; auto).
  replace (S (i + 1)) with (T m) by (apply tab2_ext; intros; zcase; auto; lia).
  apply (for_up_path T 0 m); [lia|]. intros j Hj. rewrite E by lia. cbn [bind]. unfold T. rewrite mput_tab by lia. f_equal.
  apply tab2_ext. intros x y Hx Hy. unfold set2. zcase; subst; auto; lia.
Qed.

Lemma repeat_tab2 {A} (x : A) n m : 0 <= n -> 0 <= m -> repeat (repeat x (Z.to_nat m)) (Z.to_nat n) = tab2 n m (fun _ _ => x).
Proof. intros. rewrite !repeat_tab by lia. reflexivity. Qed.

Definition weight (fs n i j : Z) : R := triangle (corner i) (corner (i + 1)) (corner (i + 2)) (IZR j * IZR fs / IZR n).

Lemma weights_ok total n fs : 11 <= total -> 1 <= n -> mel_weights total n fs = OK (tab2 total n (weight fs n)).
Proof.
  intros Ht Hn. unfold mel_weights. rewrite freqs_ok by lia. cbn [bind]. rewrite !copy_ok by lia. cbn [bind].
  rewrite !repeat_tab by lia.
  rewrite (for_up_ext _ _ _ (fun i h => aset h i (2 / (corner (2 + i) - corner (0 + i)))%R)) by (intros; tabs; reflexivity).
  rewrite fill_ok by lia. cbn [bind]. rewrite fill_ok by lia. cbn [bind].
  change (ztab total (fun _ : Z => ztab n (fun _ : Z => 0%R))) with (tab2 total n (fun _ _ => 0%R)).
  rewrite (for_up_ext _ _ _ (fun i w => for_up 0 n (fun j w => v <- OK (weight fs n i j) ;; mput w i j v) w)).
  - now apply fill2_ok; try lia.
  - intros i s Hi. apply for_up_ext. intros j s' Hj. tabs. f_equal.
    assert (IZR n <> 0)%R by (apply not_0_IZR; lia).
    replace (0 + i) with i by lia. replace (1 + i) with (i + 1) by lia. replace (2 + i) with (i + 2) by lia.
    rewrite triangle_weight.
    + unfold weight. f_equal. field. auto.
    + split; [|replace (i + 2) with (i + 1 + 1) by lia]; apply corner_lt; lia.
Qed.

Definition dctw (total i j : Z) : R :=
  ((if i =? 0 then sqrt (1 / IZR total) else sqrt (2 / IZR total)) * cos (PI * IZR i * IZR (2 * j + 1) / IZR (2 * total)))%R.

Lemma dct_ok total nceps : 1 <= total -> 0 <= nceps -> mel_dct total nceps = OK (tab2 (nceps + 1) total (dctw total)).
Proof.
  intros Ht Hn. unfold mel_dct. rewrite repeat_tab2 by lia.
  set (F := fun i j => (1 / sqrt (IZR total / 2) * cos (IZR i * (IZR j + 0.5) / IZR total * PI))%R).
  rewrite (for_up_ext _ _ _ (fun i d => for_up 0 total (fun j d => v <- OK (F i j) ;; mput d i j v) d)) by (intros; reflexivity).
  rewrite (fill2_ok _ _ F) by (auto; lia). cbn [bind].
  set (G := fun i j => if i =? 0 then (sqrt 2 / 2 * F i j)%R else F i j).
  assert (EG : forall i j, 0 <= i -> 0 <= j -> G i j = dctw total i j).
  { intros i j Hi Hj. unfold G, F, dctw. assert (P : (0 < IZR total)%R) by (apply IZR_lt; lia).
    replace (IZR i * (IZR j + 0.5) / IZR total * PI)%R with (PI * IZR i * IZR (2 * j + 1) / IZR (2 * total))%R
      by (replace 0.5%R with (/ 2)%R by lra; rewrite plus_IZR, !mult_IZR; field; lra).
    assert (S1 : (1 / sqrt (IZR total / 2) = sqrt (2 / IZR total))%R).
    { replace (2 / IZR total)%R with (/ (IZR total / 2))%R by (field; lra). rewrite <- inv_sqrt_depr by lra. unfold Rdiv. ring. }
    rewrite S1. destruct (i =? 0); auto.
    assert (S2 : (sqrt 2 / 2 * sqrt (2 / IZR total) = sqrt (1 / IZR total))%R).
    { replace (1 / IZR total)%R with ((1 / 2) * (2 / IZR total))%R by (field; lra). rewrite (sqrt_mult_alt (1 / 2)) by lra. f_equal.
      replace (1 / 2)%R with (2 / (2 * 2))%R by field. rewrite sqrt_div_alt, (sqrt_square 2) by lra. reflexivity. }
    rewrite <- S2. ring. }
  pose (S := fun j => tab2 (nceps + 1) total (fun x y => if (x =? 0) && (y <? j) then G x y else F x y)).
  replace (tab2 (nceps + 1) total F) with (S 0) by (apply tab2_ext; intros; zcase; auto).
  replace (tab2 (nceps + 1) total (dctw total)) with (S total).
  2:{ apply tab2_ext. intros i j Hi Hj. rewrite <- EG by lia. unfold G. zcase; auto; lia. }
  apply (for_up_path S 0 total); [lia|]. intros j Hj. unfold S. rewrite mget_tab by lia. cbn [bind]. rewrite mput_tab by lia. f_equal.
  apply tab2_ext. intros x y Hx Hy. unfold set2, G. zcase; subst; auto; lia.
Qed.

Lemma dct_sum total i (e : Z -> R) : rsum total (fun j => dctw total i j * e j)%R = dct2_unitary total e i.
Proof. unfold dct2_unitary. rewrite <- rsum_scal. apply rsum_ext. intros j Hj. unfold dctw. ring. Qed.

(** Keeping a property through a loop that returns. *)
Lemma for_up_keeps {St} (P : St -> Prop) lo hi (f : Z -> St -> res St) s s' :
  for_up lo hi f s = OK s' -> P s -> (forall i s s', P s -> f i s = OK s' -> P s') -> P s'.
Proof.
  unfold for_up. generalize (Z.to_nat (hi - lo)) as n. intros n. revert lo s.
  induction n as [|n IH]; intros lo s E H K; cbn in E; [injection E as <-; auto|].
  apply bind_OK in E as (s1 & E1 & E). eapply IH; eauto.
Qed.

(** *** State *)
Definition config_ok (c : mfccconfig) : Prop := 2 <= k_fftsize c < 2 ^ 31 /\ k_fftsize c mod 2 = 0 /\ 0 <= k_nceps c.

Definition fresh_ok (n : Z) (j1 j2 jc : list cplx) : Prop := zlen j1 = n / 2 /\ zlen j2 = n / 2 /\ zlen jc = n.

(** Objects built for configuration [c], then used in any way. *)
Inductive mfcc_uses (c : mfccconfig) : mfcc -> Prop :=
| mu_new j1 j2 jc o : fresh_ok (k_fftsize c) j1 j2 jc -> mfcc_new c j1 j2 jc = OK o -> mfcc_uses c o
| mu_freq o re im out o' out' r : mfcc_uses c o -> mfcc_freq o re im out = OK (o', out', r) -> mfcc_uses c o'
| mu_time o jin x out o' out' r : mfcc_uses c o -> zlen jin = k_fftsize c -> k_fftsize c <= zlen x ->
    mfcc_time o jin x out = OK (o', out', r) -> mfcc_uses c o'.

Record inv (c : mfccconfig) (o : mfcc) : Prop := {
  i_n : m_fftsize o = k_fftsize c; i_total : m_filters o = 40; i_p : m_logpower o = k_logpower c; i_nceps : m_nceps o = k_nceps c;
  i_dct : m_dct o = tab2 (k_nceps c + 1) 40 (dctw 40); i_w : m_weights o = tab2 40 (k_fftsize c) (weight (k_fs c) (k_fftsize c));
  i_win : encache (k_window c) (k_fftsize c) = OK (m_window o); i_re : zlen (m_re o) = k_fftsize c; i_im : zlen (m_im o) = k_fftsize c;
  i_mag : zlen (m_mag o) = k_fftsize c / 2; i_ear : zlen (m_ear o) = 40; i_fft : fftreal_uses (k_fftsize c) (m_fft o); i_c0 : m_c0 o = k_want_c0 c }.

Lemma encache_len t n : 2 <= n -> n mod 2 = 0 -> exists w, encache t n = OK w /\ zlen w = n.
Proof.
  intros Hn H2. destruct (Z.eq_dec n 2) as [->|N].
  - destruct t; try (eexists; split; [apply encache_cos; [lia|discriminate]|reflexivity]).
    eexists; split; reflexivity.
  - eexists. split; [apply encache_shape|zl; lia]. destruct (Z.eq_dec n 3) as [->|]; [discriminate H2|lia].
Qed.

Lemma new_inv c j1 j2 jc o : config_ok c -> fresh_ok (k_fftsize c) j1 j2 jc -> mfcc_new c j1 j2 jc = OK o -> inv c o.
Proof.
  intros (Hn & H2 & Hc) (F1 & F2 & F3) E. unfold mfcc_new in E.
  destruct (proj2 (fftreal_construction (k_fftsize c) j1 j2 jc)) as (t & Et); auto. rewrite Et in E. cbn [bind] in E.
  change (linearFilters + logFilters) with 40 in E. rewrite weights_ok in E by lia. cbn [bind] in E. rewrite dct_ok in E by lia. cbn [bind] in E.
  destruct (encache_len (k_window c) (k_fftsize c)) as (w & Ew & Lw); auto; try lia. rewrite Ew in E. cbn [bind] in E.
  rewrite Z.quot_div_nonneg in E by lia. pose proof (Z.div_pos (k_fftsize c) 2 ltac:(lia) ltac:(lia)).
  injection E as <-. constructor; cbn; auto; try (rewrite zlen_repeat; lia); try reflexivity.
  exact (ru_new _ _ _ _ _ F1 F2 F3 Et).
Qed.

Theorem mfcc_constructed c j1 j2 jc : config_ok c -> fresh_ok (k_fftsize c) j1 j2 jc -> exists o, mfcc_new c j1 j2 jc = OK o.
Proof.
  intros (Hn & H2 & Hc) (F1 & F2 & F3). unfold mfcc_new.
  destruct (proj2 (fftreal_construction (k_fftsize c) j1 j2 jc)) as (t & Et); auto. rewrite Et. cbn [bind].
  change (linearFilters + logFilters) with 40. rewrite weights_ok by lia. cbn [bind]. rewrite dct_ok by lia. cbn [bind].
  destruct (encache_len (k_window c) (k_fftsize c)) as (w & Ew & Lw); auto; try lia. rewrite Ew. cbn [bind]. eauto.
Qed.

Lemma freq_inv c o re im out o' out' r : config_ok c -> inv c o -> mfcc_freq o re im out = OK (o', out', r) -> inv c o'.
Proof.
  intros Hc I E. unfold mfcc_freq in E. apply bind_OK in E as ((mag & ear) & E1 & E). cbv beta iota in E.
  apply bind_OK in E as (out1 & _ & E). injection E as <- _ _.
  unfold mel_bands in E1. apply bind_OK in E1 as (mag1 & M & E1). apply bind_OK in E1 as (ear1 & Z1 & E1).
  apply bind_OK in E1 as (ear2 & Z2 & E1). injection E1 as -> ->.
  assert (Lm : zlen mag = zlen (m_mag o)).
  { apply (for_up_keeps (fun s => zlen s = zlen (m_mag o)) _ _ _ _ _ M); auto.
    intros i s s' Hs. rewrite !bind_OK. intros (a & _ & B). apply bind_OK in B as (b & _ & B). apply aset_inv in B as [_ ->]. now rewrite zlen_upd. }
  assert (Le1 : zlen ear1 = zlen (m_ear o)).
  { apply (for_up_keeps (fun s => zlen s = zlen (m_ear o)) _ _ _ _ _ Z1); auto.
    intros i s s' Hs B. apply aset_inv in B as [_ ->]. now rewrite zlen_upd. }
  assert (Le : zlen ear = zlen (m_ear o)).
  { apply (for_up_keeps (fun s => zlen s = zlen (m_ear o)) _ _ _ _ _ Z2); auto.
    intros i s s' Hs B. apply bind_OK in B as (tmp & _ & B). apply bind_OK in B as (s1 & B1 & B). apply aset_inv in B1 as [_ ->].
    destruct (negb _).
    - apply bind_OK in B as (x & _ & B). apply bind_OK in B as (y & _ & B). apply aset_inv in B as [_ ->]. now rewrite !zlen_upd.
    - injection B as <-. now rewrite zlen_upd. }
  destruct I. constructor; cbn; auto; congruence.
Qed.

Lemma ztab_eta_len {A} (d : A) l n : zlen l = n -> l = ztab n (zn d l).
Proof.
  intros <-. now rewrite ztab_zn.
Qed.

(** *** Values *)
Lemma log10_level b : (if Rltb 0 b then log10 b else 0%R) = level10 b.
Proof. unfold level10, log10. destruct (Rltb_spec 0 b), (Rlt_dec 0 b); auto; lra. Qed.

Definition bands_fit (p : R) (fs n : Z) (mag : Z -> R) : Prop := p = 1%R \/ forall i, 0 <= i < 40 -> (1 < band fs n mag i)%R.

Lemma level_pos b : (1 < b)%R -> (0 < level10 b)%R.
Proof.
  intros H. unfold level10. destruct (Rlt_dec 0 b); [|lra].
  assert (0 < ln b)%R by (rewrite <- ln_1; apply ln_increasing; lra).
  assert (0 < ln 10)%R by (rewrite <- ln_1; apply ln_increasing; lra).
  apply Rmult_lt_0_compat; [auto|now apply Rinv_0_lt_compat].
Qed.

Lemma bands_ok c o re im : config_ok c -> inv c o -> k_fftsize c / 2 <= zlen re -> k_fftsize c / 2 <= zlen im ->
  let mag := magn (zn 0%R re) (zn 0%R im) in bands_fit (k_logpower c) (k_fs c) (k_fftsize c) mag ->
  mel_bands o re im = OK (ztab (k_fftsize c / 2) mag, ztab 40 (fun i => powered (k_logpower c) (level10 (band (k_fs c) (k_fftsize c) mag i)))).
Proof.
  intros (Hn & H2 & Hc) I Lr Li mag F. unfold mel_bands. destruct I. rewrite i_n0, i_total0, i_p0, i_w0.
  rewrite Z.quot_div_nonneg by lia. set (n := k_fftsize c) in *. set (h := n / 2) in *. set (p := k_logpower c) in *. set (fs := k_fs c) in *.
  assert (Hh : 0 <= h) by (apply Z.div_pos; lia). assert (Hhn : h <= n) by (apply Z.div_le_upper_bound; lia).
  rewrite (ztab_eta_len 0%R (m_mag o) h), (ztab_eta_len 0%R (m_ear o) 40) by auto.
  rewrite (for_up_ext _ _ _ (fun i m => aset m i (mag i))).
  2:{ intros i s Hi. rewrite !(aget_OK 0%R) by lia. reflexivity. }
  rewrite fill_ok by lia. cbn [bind]. rewrite fill_ok by lia. cbn [bind].
  set (e := fun i => powered p (level10 (band fs n mag i))).
  pose (S := fun i => ztab 40 (fun k => if k <? i then e k else 0%R)).
  replace (ztab 40 (fun _ => 0%R)) with (S 0) by (apply ztab_ext; intros; zcase; auto).
  rewrite (for_up_path S 0 40); [|lia|].
  - reflexivity.
  - intros i Hi. unfold S.
    rewrite (for_up_path (fun j => rsum j (fun j => weight fs n i j * mag j)%R) 0 h); [|lia|].
    2:{ intros j Hj. rewrite mget_tab by lia. cbn [bind]. tabs. now rewrite rsum_S by lia. }
    cbn [bind]. rewrite log10_level. change (rsum h (fun j => weight fs n i j * mag j)%R) with (band fs n mag i). tabs. unfold Reqb, e, powered.
    destruct (Req_EM_T p 1) as [P|P]; cbn [negb].
    + f_equal. apply ztab_ext. intros k Hk. unfold set1. zcase; subst; auto; lia.
    + tabs. unfold set1 at 1. rewrite Z.eqb_refl. destruct F as [F|F]; [now elim P|].
      specialize (F i Hi). apply level_pos in F. unfold cpow. destruct (Rltb_spec 0 (level10 (band fs n mag i))); [|lra].
      cbn [bind]. tabs. f_equal. apply ztab_ext. intros k Hk. unfold set1. zcase; subst; auto; lia.
Qed.

Definition count (c : mfccconfig) : Z := if k_want_c0 c then k_nceps c + 1 else k_nceps c.

(** The coefficients stand in the first places of the output; the rest is as before. *)
Definition coefficients (c : mfccconfig) (mag : Z -> R) (out out' : list R) : Prop :=
  zlen out' = zlen out /\
  forall k, 0 <= k -> zn 0%R out' k =
    if k <? count c then cepstrum (k_logpower c) (k_fs c) (k_fftsize c) mag (if k_want_c0 c then k else k + 1) else zn 0%R out k.

Lemma freq_ok c o re im out : config_ok c -> inv c o -> k_fftsize c / 2 <= zlen re -> k_fftsize c / 2 <= zlen im -> count c <= zlen out ->
  let mag := magn (zn 0%R re) (zn 0%R im) in bands_fit (k_logpower c) (k_fs c) (k_fftsize c) mag ->
  exists o' out', mfcc_freq o re im out = OK (o', out', k_nceps c) /\ coefficients c mag out out'.
Proof.
  intros Hc I Lr Li Lo mag F. unfold mfcc_freq. rewrite (bands_ok c) by auto. fold mag. cbn [bind].
  set (e := fun i => powered (k_logpower c) (level10 (band (k_fs c) (k_fftsize c) mag i))).
  destruct I. destruct Hc as (Hn & H2 & Hc). rewrite i_total0, i_nceps0, i_c1, i_dct0. unfold coefficients, count in *.
  assert (D : forall i, 0 <= i <= k_nceps c ->
    for_up 0 40 (fun j tmp => d <- mget (tab2 (k_nceps c + 1) 40 (dctw 40)) i j ;; e0 <- aget (ztab 40 e) j ;; OK (tmp + d * e0)%R) 0%R
      = OK (cepstrum (k_logpower c) (k_fs c) (k_fftsize c) mag i)).
  { intros i Hi. unfold cepstrum. fold e. rewrite <- dct_sum.
    apply (for_up_path (fun j => rsum j (fun j => dctw 40 i j * e j)%R) 0 40); [lia|]. intros j Hj. rewrite mget_tab by lia.
    cbn [bind]. tabs. now rewrite rsum_S by lia. }
  destruct (k_want_c0 c).
  - rewrite (for_up_ext _ _ _ (fun i out => aset out i (cepstrum (k_logpower c) (k_fs c) (k_fftsize c) mag i)))
      by (intros i s Hi; rewrite D by lia; reflexivity).
    destruct (for_up_fill 0%R 0 (k_nceps c + 1) (cepstrum (k_logpower c) (k_fs c) (k_fftsize c) mag) out) as (out' & E & L & V); [lia..|].
    rewrite E. cbn [bind]. do 2 eexists. split; [reflexivity|]. split; auto. intros k Hk. rewrite V by auto. zcase; auto; lia.
  - rewrite (for_up_ext _ _ _ (fun i out => aset out (i - 1) (cepstrum (k_logpower c) (k_fs c) (k_fftsize c) mag i)))
      by (intros i s Hi; rewrite D by lia; reflexivity).
    destruct (for_up_inv (fun i l => zlen l = zlen out /\ forall k, 0 <= k -> zn 0%R l k =
       if k <? i - 1 then cepstrum (k_logpower c) (k_fs c) (k_fftsize c) mag (k + 1) else zn 0%R out k)
      1 (k_nceps c + 1) (fun i out => aset out (i - 1) (cepstrum (k_logpower c) (k_fs c) (k_fftsize c) mag i)) out) as (out' & E & L & V).
    + lia.
    + split; auto. intros k Hk. zcase; auto; lia.
    + intros i l Hi (L & V). eexists. split; [apply aset_OK; lia|]. rewrite zlen_upd. split; auto. intros k Hk.
      rewrite zn_upd by lia. rewrite V by auto. zcase; subst; auto; try lia. f_equal; lia.
    + rewrite E. cbn [bind]. do 2 eexists. split; [reflexivity|]. split; auto. intros k Hk. rewrite V by auto. zcase; auto; lia.
Qed.

Lemma time_inv c o jin x out o' out' r : config_ok c -> inv c o -> zlen jin = k_fftsize c -> k_fftsize c <= zlen x ->
  mfcc_time o jin x out = OK (o', out', r) -> inv c o'.
Proof.
  intros Hc I Lj Lx E. pose proof Hc as (Hn & H2 & _). pose proof I as []. unfold mfcc_time in E. rewrite i_n0 in E.
  apply bind_OK in E as (inp & E1 & E). apply bind_OK in E as (cutd & E2 & E). apply bind_OK in E as (((t & re) & im) & E3 & E).
  cbv beta iota in E.
  assert (L1 : zlen inp = zlen jin).
  { apply (for_up_keeps (fun s => zlen s = zlen jin) _ _ _ _ _ E1); auto. intros i s s' Hs B. apply bind_OK in B as (v & _ & B).
    apply aset_inv in B as [_ ->]. now rewrite zlen_upd. }
  assert (L2 : zlen cutd = zlen inp).
  { apply (for_up_keeps (fun s => zlen s = zlen inp) _ _ _ _ _ E2); auto. intros i s s' Hs B. apply bind_OK in B as (v & _ & B).
    apply bind_OK in B as (v' & _ & B). apply aset_inv in B as [_ ->]. now rewrite zlen_upd. }
  destruct (fftreal_forward_dft (k_fftsize c) (m_fft o) cutd (m_re o) (m_im o)) as (t' & re' & im' & E3' & U & (Lr & _) & (Li & _)); auto; try lia.
  rewrite E3 in E3'. injection E3' as -> -> ->.
  eapply freq_inv; [exact Hc| |exact E]. constructor; cbn; auto; congruence.
Qed.

Lemma uses_inv c o : config_ok c -> mfcc_uses c o -> inv c o.
Proof.
  intros Hc U. induction U; [eapply new_inv; eauto|eapply freq_inv; eauto|eapply time_inv; eauto].
Qed.

Theorem mfcc_spectrum c o re im out :
  config_ok c -> mfcc_uses c o -> k_fftsize c / 2 <= zlen re -> k_fftsize c / 2 <= zlen im -> count c <= zlen out ->
  let mag := magn (zn 0%R re) (zn 0%R im) in bands_fit (k_logpower c) (k_fs c) (k_fftsize c) mag ->
  exists o' out', mfcc_freq o re im out = OK (o', out', k_nceps c) /\ mfcc_uses c o' /\ coefficients c mag out out'.
Proof.
  intros Hc U Lr Li Lo mag F. destruct (freq_ok c o re im out) as (o' & out' & E & V); auto using uses_inv.
  exists o', out'. splits; auto. eapply mu_freq; eauto.
Qed.

(** Magnitudes of the spectrum of [x] cut by the window [w]. *)
Definition spectrum (n : Z) (w x : list R) : Z -> R :=
  let y j := (zn 0 x j * zn 0 w j)%R in magn (dft_re n y (fun _ => 0%R)) (dft_im n y (fun _ => 0%R)).

Lemma band_ext fs n mag mag' i : (forall j, 0 <= j < n / 2 -> mag j = mag' j) -> band fs n mag i = band fs n mag' i.
Proof. intros H. unfold band. apply rsum_ext. intros j Hj. now rewrite H. Qed.
Lemma cepstrum_ext p fs n mag mag' k : (forall j, 0 <= j < n / 2 -> mag j = mag' j) -> cepstrum p fs n mag k = cepstrum p fs n mag' k.
Proof.
  intros H. unfold cepstrum, dct2_unitary. f_equal. apply rsum_ext. intros j Hj. now rewrite (band_ext fs n mag mag').
Qed.

Theorem mfcc_frame c o jin x out w :
  config_ok c -> mfcc_uses c o -> encache (k_window c) (k_fftsize c) = OK w ->
  zlen jin = k_fftsize c -> k_fftsize c <= zlen x -> count c <= zlen out ->
  let mag := spectrum (k_fftsize c) w x in bands_fit (k_logpower c) (k_fs c) (k_fftsize c) mag ->
  exists o' out', mfcc_time o jin x out = OK (o', out', k_nceps c) /\ mfcc_uses c o' /\ coefficients c mag out out'.
Proof.
  intros Hc U Ew Lj Lx Lo mag F. pose proof (uses_inv c o Hc U) as I. pose proof Hc as (Hn & H2 & H3). pose proof I as [].
  assert (m_window o = w) by congruence. subst w.
  destruct (encache_len (k_window c) (k_fftsize c)) as (w' & Ew' & Lw); [lia|auto|]. rewrite Ew in Ew'. injection Ew' as <-.
  enough (exists o' out', mfcc_time o jin x out = OK (o', out', k_nceps c) /\ coefficients c mag out out') as (o' & out' & E & V).
  { exists o', out'. split; [exact E|split; [|exact V]]. exact (mu_time c o jin x out _ _ _ U Lj Lx E). }
  unfold mfcc_time. rewrite i_n0. set (n := k_fftsize c) in *.
  rewrite (for_up_ext _ _ _ (fun i d => aset d i (zn 0%R x i))) by (intros i s Hi; rewrite (aget_OK 0%R) by lia; reflexivity).
  rewrite (ztab_eta_len 0%R jin n), fill_ok by (auto; lia). cbn [bind].
  destruct (cut_in_place_ok (m_window o) n (ztab n (zn 0%R x))) as (d & Ed & Ld & Pd & _); [lia|lia|zl; lia|]. rewrite Ed. cbn [bind].
  assert (Ln : zlen d = n) by (rewrite Ld; zl; lia).
  destruct (fftreal_forward_dft n (m_fft o) d (m_re o) (m_im o)) as (t & re & im & Ef & Ut & (Lr & Vr & _) & (Li & Vi & _)); auto; try lia.
  rewrite Ef. cbn [bind].
  assert (Hh : 0 <= n / 2 <= n) by (split; [apply Z.div_pos; lia|apply Z.div_le_upper_bound; lia]).
  assert (M : forall j, 0 <= j < n / 2 -> magn (zn 0%R re) (zn 0%R im) j = mag j).
  { intros j Hj. unfold magn, mag, spectrum. rewrite Vr, Vi by lia.
    assert (Dx : forall i, 0 <= i < n -> zn 0%R d i = (zn 0 x i * zn 0 (m_window o) i)%R).
    { intros i Hi. etransitivity; [exact (Pd i Hi)|].
      change (zn 0 (ztab n (zn 0 x)) i * zn 0 (m_window o) i = zn 0 x i * zn 0 (m_window o) i)%R. now rewrite zn_ztab by lia. }
    unfold magn. f_equal. f_equal; f_equal; apply rsum_ext; intros i Hi; rewrite Dx by lia; reflexivity. }
  match goal with |- context [mfcc_freq ?o1 re im out] => destruct (freq_ok c o1 re im out) as (o' & out' & E & V) end; auto; fold n; try lia.
  - constructor; cbn; auto; try congruence; try (fold n; lia).
  - destruct F as [F|F]; [now left|right]. intros i Hi. rewrite (band_ext _ _ _ mag) by auto. auto.
  - exists o', out'. split; [exact E|]. destruct V as (L & V). split; auto. intros k Hk. rewrite V by auto. zcase; auto.
    now apply cepstrum_ext.
Qed.
