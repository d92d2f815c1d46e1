(** C78-C81: mel-frequency cepstral coefficients (dsp/mfcc/MFCC.cpp). *)
From Coq Require Import List ZArith Reals Lia Lra Bool.
From Verif.Base Require Import Imp RealOps.
From Verif.Fft Require Import Cplx FftSpec FftrModel.
From Verif.Windows Require Import WindowModel.
From Verif.Mfcc Require Import MfccModel MfccSpec MfccProofs MfccResults.
Import ListNotations.
Open Scope Z_scope.

(** C78: after any history of calls, the coefficients are the orthonormal cosine transform of the logarithms of the
    outputs of 40 triangular filters; exactly nceps (+1 with C0) places of the output are written. *)
Theorem C78_spectrum :
  forall c o re im out,
    config_ok c -> mfcc_uses c o -> k_fftsize c / 2 <= zlen re -> k_fftsize c / 2 <= zlen im -> count c <= zlen out ->
    let mag := magn (zn 0%R re) (zn 0%R im) in bands_fit (k_logpower c) (k_fs c) (k_fftsize c) mag ->
    exists o' out', mfcc_freq o re im out = OK (o', out', k_nceps c) /\ mfcc_uses c o' /\ coefficients c mag out out'.
Proof. exact mfcc_spectrum. Qed.
Print Assumptions C78_spectrum.

Theorem C78_frame :
  forall c o jin x out w,
    config_ok c -> mfcc_uses c o -> encache (k_window c) (k_fftsize c) = OK w ->
    zlen jin = k_fftsize c -> k_fftsize c <= zlen x -> count c <= zlen out ->
    let mag := spectrum (k_fftsize c) w x in bands_fit (k_logpower c) (k_fs c) (k_fftsize c) mag ->
    exists o' out', mfcc_time o jin x out = OK (o', out', k_nceps c) /\ mfcc_uses c o' /\ coefficients c mag out out'.
Proof. exact mfcc_frame. Qed.
Print Assumptions C78_frame.

Theorem C78_constructed :
  forall c j1 j2 jc,
    (config_ok c -> fresh_ok (k_fftsize c) j1 j2 jc -> exists o, mfcc_new c j1 j2 jc = OK o) /\
    (k_fftsize c mod 2 <> 0 -> mfcc_new c j1 j2 jc = Throw).
Proof. split; [apply mfcc_constructed|apply mfcc_odd]. Qed.
Print Assumptions C78_constructed.

(** Frames with the same magnitudes below half the sampling rate give the same result, whatever came before. *)
Theorem C78_same :
  forall c o1 o2 re1 im1 re2 im2 out, config_ok c -> mfcc_uses c o1 -> mfcc_uses c o2 ->
    k_fftsize c / 2 <= zlen re1 -> k_fftsize c / 2 <= zlen im1 -> k_fftsize c / 2 <= zlen re2 -> k_fftsize c / 2 <= zlen im2 ->
    count c <= zlen out -> bands_fit (k_logpower c) (k_fs c) (k_fftsize c) (magn (zn 0%R re1) (zn 0%R im1)) ->
    (forall j, 0 <= j < k_fftsize c / 2 -> magn (zn 0%R re1) (zn 0%R im1) j = magn (zn 0%R re2) (zn 0%R im2) j) ->
    exists o1' o2' out', mfcc_freq o1 re1 im1 out = OK (o1', out', k_nceps c) /\ mfcc_freq o2 re2 im2 out = OK (o2', out', k_nceps c).
Proof. exact mfcc_same. Qed.
Print Assumptions C78_same.

Theorem C78_time_freq :
  forall c o1 o2 jin x re im out w, config_ok c -> mfcc_uses c o1 -> mfcc_uses c o2 ->
    encache (k_window c) (k_fftsize c) = OK w -> zlen jin = k_fftsize c -> k_fftsize c <= zlen x ->
    k_fftsize c / 2 <= zlen re -> k_fftsize c / 2 <= zlen im ->
    count c <= zlen out -> bands_fit (k_logpower c) (k_fs c) (k_fftsize c) (spectrum (k_fftsize c) w x) ->
    (forall j, 0 <= j < k_fftsize c / 2 -> magn (zn 0%R re) (zn 0%R im) j = spectrum (k_fftsize c) w x j) ->
    exists o1' o2' out', mfcc_time o1 jin x out = OK (o1', out', k_nceps c) /\ mfcc_freq o2 re im out = OK (o2', out', k_nceps c).
Proof. exact mfcc_time_freq. Qed.
Print Assumptions C78_time_freq.

Theorem C78_polarity :
  forall c o1 o2 jin1 jin2 x out w, config_ok c -> mfcc_uses c o1 -> mfcc_uses c o2 ->
    encache (k_window c) (k_fftsize c) = OK w -> zlen jin1 = k_fftsize c -> zlen jin2 = k_fftsize c -> k_fftsize c <= zlen x ->
    count c <= zlen out -> bands_fit (k_logpower c) (k_fs c) (k_fftsize c) (spectrum (k_fftsize c) w x) ->
    exists o1' o2' out', mfcc_time o1 jin1 x out = OK (o1', out', k_nceps c) /\
      mfcc_time o2 jin2 (map Ropp x) out = OK (o2', out', k_nceps c).
Proof. exact mfcc_polarity. Qed.
Print Assumptions C78_polarity.

Theorem C78_silence : forall fs n k, cepstrum 1 fs n (fun _ => 0%R) k = 0%R.
Proof. exact cepstrum_silence. Qed.
Print Assumptions C78_silence.

(** A log power that is not a whole number is undefined (pow of a negative number) for quiet input. *)
Theorem C78_power_refuted :
  forall c o re im out, config_ok c -> mfcc_uses c o -> k_fftsize c / 2 <= zlen re -> k_fftsize c / 2 <= zlen im ->
    k_logpower c <> IZR (Zfloor (k_logpower c)) -> (0 < band (k_fs c) (k_fftsize c) (magn (zn 0 re) (zn 0 im)) 0 < 1)%R ->
    mfcc_freq o re im out = UB.
Proof. exact mfcc_power_undefined. Qed.
Print Assumptions C78_power_refuted.

Definition example_config := {| k_fs := 44100; k_fftsize := 1024; k_nceps := 19; k_logpower := 1; k_want_c0 := true; k_window := Hamming |}.

Example C78_case : config_ok example_config /\ (exists o, mfcc_uses example_config o) /\
  count example_config = 20 /\ bands_fit 1 44100 1024 (fun _ => 1%R).
Proof.
  assert (C : config_ok example_config) by (repeat split; cbn; lia). split; auto.
  set (z := fun n => repeat (0, 0)%R (Z.to_nat n)). split; [|split; [reflexivity|now left]].
  assert (F : fresh_ok (k_fftsize example_config) (z 512) (z 512) (z 1024)) by (repeat split).
  destruct (mfcc_constructed _ _ _ _ C F) as (o & E). exists o. exact (mu_new _ _ _ _ _ F E).
Qed.

(** C79: a gain changes coefficient 0 only ... *)
Theorem C79_gain :
  forall c o o' re im out g, config_ok c -> mfcc_uses c o -> mfcc_uses c o' -> k_logpower c = 1%R -> k_nceps c < 80 ->
    k_fftsize c / 2 <= zlen re -> k_fftsize c / 2 <= zlen im -> count c <= zlen out -> (0 < g)%R ->
    (forall i, 0 <= i < 40 -> (0 < band (k_fs c) (k_fftsize c) (magn (zn 0 re) (zn 0 im)) i)%R) ->
    exists o1 o2 out1 out2, mfcc_freq o re im out = OK (o1, out1, k_nceps c) /\
      mfcc_freq o' (map (Rmult g) re) (map (Rmult g) im) out = OK (o2, out2, k_nceps c) /\
      forall k, 0 <= k -> zn 0%R out2 k = (zn 0 out1 k + if k_want_c0 c && (k =? 0) then sqrt 40 * decades g else 0)%R.
Proof. exact mfcc_gain. Qed.
Print Assumptions C79_gain.

(** ... which holds for full-band input at usual rates and frame sizes ... *)
Theorem C79_full_band :
  forall fs n mag, 13000 <= fs <= 66 * n -> (forall j, 0 <= j < n / 2 -> (0 < mag j)%R) ->
    forall i, 0 <= i < 40 -> (0 < band fs n mag i)%R.
Proof. exact bands_sound. Qed.
Print Assumptions C79_full_band.

(** ... but at sampling rates up to 11025 Hz never, unless the input is silent. *)
Theorem C79_low_rate_refuted :
  forall fs n mag g i, 0 <= fs <= 11025 -> 1 <= n -> (0 < g)%R -> g <> 1%R -> 0 <= i < 40 -> (0 < band fs n mag i)%R ->
    exists k, 1 <= k < 40 /\ cepstrum 1 fs n (fun j => g * mag j)%R k <> cepstrum 1 fs n mag k.
Proof. exact mfcc_gain_low_rate. Qed.
Print Assumptions C79_low_rate_refuted.

Example C79_case : 13000 <= k_fs example_config <= 66 * k_fftsize example_config /\
  exists i, 0 <= i < 40 /\ (0 < band 11025 512 (lone 5) i)%R.
Proof.
  split; [cbn; lia|].
  destruct (filter_cover 11025 512 5) as (_ & H & _); [change (512 / 2) with 256; lia|]. apply H.
  pose proof (corner_top 0 ltac:(lia)). pose proof (corner_mono 12 41 ltac:(lia)). rewrite corner_12 in *.
  unfold corner at 1. replace (0 <=? 12) with true by reflexivity. lra.
Qed.

(** C80: the squares of the 40 coefficients 0 to 39 add up to the squares of the band levels, fewer to no more; ... *)
Theorem C80_energy :
  forall p fs n mag N, 0 <= N <= 40 ->
    let level i := powered p (level10 (band fs n mag i)) in
    (rsum N (fun k => cepstrum p fs n mag k * cepstrum p fs n mag k) <= rsum 40 (fun i => level i * level i))%R /\
    (N = 40%Z -> rsum N (fun k => cepstrum p fs n mag k * cepstrum p fs n mag k) = rsum 40 (fun i => level i * level i))%R.
Proof. exact cepstrum_energy. Qed.
Print Assumptions C80_energy.

(** ... they determine the band outputs; further ones repeat earlier ones with the sign changed. *)
Theorem C80_determines :
  forall fs n mag mag',
    (forall k, 0 <= k < 40 -> cepstrum 1 fs n mag k = cepstrum 1 fs n mag' k) ->
    forall i, 0 <= i < 40 -> (0 < band fs n mag i)%R -> (0 < band fs n mag' i)%R -> band fs n mag i = band fs n mag' i.
Proof. exact cepstrum_determines. Qed.
Print Assumptions C80_determines.

Theorem C80_mirror : forall p fs n mag k, 1 <= k < 80 -> cepstrum p fs n mag (80 - k) = (- cepstrum p fs n mag k)%R.
Proof. exact cepstrum_mirror. Qed.
Print Assumptions C80_mirror.

Example C80_case : forall i, 0 <= i < 40 -> (0 < band 44100 1024 (fun _ => 1%R) i)%R.
Proof. apply bands_sound; [lia|]. intros; lra. Qed.

(** C81: a single sounding bin between the lowest and the highest corner is heard by one or two neighbouring filters,
    exactly those whose corners enclose it. *)
Theorem C81_cover :
  forall fs n j, let f := (IZR j * IZR fs / IZR n)%R in 0 <= j < n / 2 ->
    (forall i, 0 <= i < 40 -> ((0 < band fs n (lone j) i)%R <-> (corner i < f < corner (i + 2))%R)) /\
    ((corner 0 < f < corner 41)%R -> exists i, 0 <= i < 40 /\ (0 < band fs n (lone j) i)%R) /\
    (forall i i', 0 <= i < 40 -> 0 <= i' < 40 -> (0 < band fs n (lone j) i)%R -> (0 < band fs n (lone j) i')%R -> Z.abs (i - i') <= 1).
Proof. exact filter_cover. Qed.
Print Assumptions C81_cover.

Theorem C81_shape :
  forall i, 0 <= i < 40 -> let T := triangle (corner i) (corner (i + 1)) (corner (i + 2)) in
    (corner i < corner (i + 1) < corner (i + 2))%R /\
    (forall f, (0 <= T f <= 2 / (corner (i + 2) - corner i))%R /\ ((corner i < f < corner (i + 2))%R <-> (0 < T f)%R)) /\
    T (corner (i + 1)) = (2 / (corner (i + 2) - corner i))%R.
Proof. exact filter_shape. Qed.
Print Assumptions C81_shape.

Example C81_case : 0 <= 23 < 1024 / 2 /\ (corner 0 < IZR 23 * IZR 44100 / IZR 1024 < corner 41)%R.
Proof.
  split; [change (1024 / 2) with 512; lia|]. pose proof (corner_mono 12 41 ltac:(lia)). pose proof (corner_mono 19 41 ltac:(lia)).
  unfold corner at 1. replace (0 <=? 12) with true by reflexivity. split; [lra|].
  eapply Rle_lt_trans; [|exact H0]. unfold corner. replace (19 <=? 12) with false by reflexivity. rewrite ratio_up_pow.
  change (Z.to_nat (19 - 12)) with 7%nat. cbn [pow]. lra.
Qed.
