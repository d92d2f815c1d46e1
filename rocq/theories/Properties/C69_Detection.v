(** C69-C71: the onset detection functions. *)
From Coq Require Import List ZArith Reals Lia Lra Bool.
From Verif.Base Require Import Imp RealOps.
From Verif.Maths Require Import RealSpec.
From Verif.Vocoder Require Import PvSpec.
From Verif.Onset Require Import DetModel DetSpec DetResults DetFacts.
Import ListNotations.
Open Scope Z_scope.

(** C69: each call returns the documented function of the spectra of the frames so far, however the
    frames were handed over; getSpectrumMagnitude is the (whitened) magnitude, and the unwrapped phases
    are equal to the measured ones up to whole turns. *)
Theorem C69_values :
  forall c j fs M TH, config_ok c -> junk_ok (c_frame c) j -> Forall (frame_ok (c_frame c)) fs -> polar_of (c_frame c) fs M TH ->
    exists o o' vs, df_new c j = OK o /\ df_calls o fs = OK (o', vs) /\ length vs = length fs /\
      (forall t v, nth_error vs t = Some v -> detects c M TH t v) /\
      (fs <> [] -> zlen (d_mag o') = c_frame c / 2 + 1 /\ forall k, 0 <= k <= c_frame c / 2 ->
         zn 0%R (d_mag o') k = level c M (length fs - 1) k /\ same_angle (zn 0%R (d_unwrapped o') k) (TH (length fs - 1)%nat k)).
Proof. exact detection_values. Qed.
Print Assumptions C69_values.

(** Every sequence of frames has such magnitudes and arguments, and the value is determined by them. *)
Theorem C69_polar_exists : forall n fs, exists M TH, polar_of n fs M TH.
Proof. exact polar_exists. Qed.
Print Assumptions C69_polar_exists.

Theorem C69_unique : forall c M TH t v v', detects c M TH t v -> detects c M TH t v' -> v = v'.
Proof. exact detects_unique. Qed.
Print Assumptions C69_unique.

(** Frames of samples and frames of bins with the same spectra give the same values. *)
Theorem C69_same_spectra :
  forall c j fs fs', config_ok c -> junk_ok (c_frame c) j ->
    Forall (frame_ok (c_frame c)) fs -> Forall (frame_ok (c_frame c)) fs' -> length fs = length fs' ->
    (forall t f f' k, nth_error fs t = Some f -> nth_error fs' t = Some f' -> 0 <= k <= c_frame c / 2 ->
       spectrum_re (c_frame c) f k = spectrum_re (c_frame c) f' k /\ spectrum_im (c_frame c) f k = spectrum_im (c_frame c) f' k) ->
    exists o o1 o2 vs, df_new c j = OK o /\ df_calls o fs = OK (o1, vs) /\ df_calls o fs' = OK (o2, vs).
Proof. exact detection_spectra. Qed.
Print Assumptions C69_same_spectra.

(** C70: with whitening the magnitudes are between 0 and 1; relative to the loudest so far they are
    never lowered, and a bin at its loudest is 1. *)
Theorem C70_whitened :
  forall c j fs M TH o o' vs, config_ok c -> c_whiten c = true -> junk_ok (c_frame c) j -> Forall (frame_ok (c_frame c)) fs ->
    polar_of (c_frame c) fs M TH -> fs <> [] -> df_new c j = OK o -> df_calls o fs = OK (o', vs) ->
    forall k, 0 <= k <= c_frame c / 2 ->
      (0 <= zn 0 (d_mag o') k <= 1)%R /\
      ((relax_of c <= 1)%R -> forall b, (floor_of c <= b)%R -> (forall s, (s < length fs)%nat -> (M s k <= b)%R) ->
         (M (length fs - 1)%nat k / b <= zn 0 (d_mag o') k)%R) /\
      ((relax_of c <= 1)%R -> (floor_of c <= M (length fs - 1)%nat k)%R ->
         (forall s, (s < length fs)%nat -> (M s k <= M (length fs - 1)%nat k)%R) -> zn 0%R (d_mag o') k = 1%R).
Proof. exact calls_whitened. Qed.
Print Assumptions C70_whitened.

(** The level followed falls back geometrically in silence. *)
Theorem C70_decay :
  forall relax floor m, (0 <= relax)%R -> (0 < floor)%R -> forall t d, (relax <= 1)%R ->
    (forall s, (t < s <= t + d)%nat -> m s = 0%R) -> (0 <= m t)%R ->
    envelope relax floor m (t + d) = Rmax floor (relax ^ d * envelope relax floor m t).
Proof. exact envelope_decay. Qed.
Print Assumptions C70_decay.

(** Scaling the input and the floor changes nothing. *)
Theorem C70_whitened_gain :
  forall c j fs g, config_ok c -> c_whiten c = true -> junk_ok (c_frame c) j -> Forall (frame_ok (c_frame c)) fs -> (0 < g)%R ->
    exists o o' o1 o2 vs, df_new c j = OK o /\ df_new (with_floor c (g * floor_of c)) j = OK o' /\ df_calls o fs = OK (o1, vs) /\
      df_calls o' (map (louder g) fs) = OK (o2, vs).
Proof. exact detection_whitened_gain. Qed.
Print Assumptions C70_whitened_gain.

(** A floor of exactly 0 is accepted, and then silence at the start is 0/0. *)
Theorem C70_zero_floor_undefined :
  forall c j f, 2 <= c_frame c < 2 ^ 31 -> c_frame c mod 2 = 0 -> c_whiten c = true -> c_floor c = 0%R ->
    junk_ok (c_frame c) j -> frame_ok (c_frame c) f ->
    (forall k, 0 <= k <= c_frame c / 2 -> spectrum_re (c_frame c) f k = 0%R /\ spectrum_im (c_frame c) f k = 0%R) ->
    exists o, df_new c j = OK o /\ df_process o f = UB.
Proof. exact detection_floor_zero. Qed.
Print Assumptions C70_zero_floor_undefined.

(** C71: a gain multiplies the high-frequency content, spectral difference and complex measures, and
    leaves phase deviation and broadband count alone (without whitening). *)
Theorem C71_gain :
  forall c j fs g, config_ok c -> c_whiten c = false -> junk_ok (c_frame c) j -> Forall (frame_ok (c_frame c)) fs -> (0 < g)%R ->
    exists o o1 o2 vs, df_new c j = OK o /\ df_calls o fs = OK (o1, vs) /\
      df_calls o (map (louder g) fs) = OK (o2, map (match c_type c with 1 | 2 | 4 => Rmult g | _ => fun v => v end) vs).
Proof. exact detection_gain. Qed.
Print Assumptions C71_gain.

(** The phase measure is at most pi per bin, and 0 exactly when every phase moves on by as much as before. *)
Theorem C71_phase :
  forall c j fs M TH o o' vs t v, config_ok c -> c_type c = 3 -> junk_ok (c_frame c) j -> Forall (frame_ok (c_frame c)) fs ->
    polar_of (c_frame c) fs M TH -> df_new c j = OK o -> df_calls o fs = OK (o', vs) -> nth_error vs t = Some v ->
    (0 <= v <= IZR (c_frame c / 2 + 1) * PI)%R /\
    (v = 0%R <-> forall k, 0 <= k <= c_frame c / 2 -> same_angle (TH t k - past TH t 1 k) (past TH t 1 k - past TH t 2 k)).
Proof. exact calls_phase. Qed.
Print Assumptions C71_phase.

(** The complex measure is at least the sum of the changes of magnitude, and 0 exactly when every bin is
    what the two frames before predict. *)
Theorem C71_complex :
  forall c j fs M TH o o' vs t v, config_ok c -> c_type c = 4 -> junk_ok (c_frame c) j -> Forall (frame_ok (c_frame c)) fs ->
    polar_of (c_frame c) fs M TH -> df_new c j = OK o -> df_calls o fs = OK (o', vs) -> nth_error vs t = Some v ->
    let L := level c M in let h := c_frame c / 2 + 1 in
    (rsum h (fun k => Rabs (L t k - past L t 1 k)) <= v <= rsum h (fun k => L t k + past L t 1 k))%R /\
    (v = 0%R <-> forall k, 0 <= k <= c_frame c / 2 ->
       (past L t 1 k * cos (2 * past TH t 1 k - past TH t 2 k) = L t k * cos (TH t k) /\
        past L t 1 k * sin (2 * past TH t 1 k - past TH t 2 k) = L t k * sin (TH t k))%R).
Proof. exact calls_complex. Qed.
Print Assumptions C71_complex.

Theorem C71_broadband :
  forall c j fs M TH o o' vs t v, config_ok c -> c_type c = 5 -> junk_ok (c_frame c) j -> Forall (frame_ok (c_frame c)) fs ->
    polar_of (c_frame c) fs M TH -> df_new c j = OK o -> df_calls o fs = OK (o', vs) -> nth_error vs t = Some v ->
    (0 <= v <= IZR (c_frame c / 2 + 1))%R /\ exists q : Z, v = IZR q.
Proof. exact calls_broadband. Qed.
Print Assumptions C71_broadband.

(** Cases: frame length 2 and one frame of bins 3+4i and 1. *)
Definition ex_junk : dfjunk :=
  {| k1 := [(0, 0)]%R; k2 := [(0, 0)]%R; kc := [(0, 0); (0, 0)]%R; kt := [1; 2]%R; kr := [1; 2]%R; ki := [1; 2]%R;
     kmag := [7; 7]%R; ktheta := [7; 7]%R; kun := [7; 7]%R; kwin := [7; 7]%R |}.
Definition ex_config (t : Z) : dfconfig :=
  {| c_step := 1; c_frame := 2; c_type := t; c_rise := 3; c_whiten := false; c_relax := -1; c_floor := -1 |}.
Lemma ex_ok t : config_ok (ex_config t) /\ junk_ok 2 ex_junk.
Proof. split; [split; [cbn; lia|split; [reflexivity|discriminate]]|repeat split]. Qed.

Example C69_case : exists o o', df_new (ex_config 1) ex_junk = OK o /\
  df_calls o [Bins [3; 1]%R [4; 0]%R] = OK (o', [7%R]).
Proof.
  destruct (ex_ok 1) as (C & J). destruct (C69_polar_exists 2 [Bins [3; 1]%R [4; 0]%R]) as (M & TH & P).
  destruct (C69_values (ex_config 1) ex_junk [Bins [3; 1]%R [4; 0]%R] M TH C J) as (o & o' & vs & E & E' & L & D & _); auto.
  { repeat constructor; cbv; discriminate. }
  exists o, o'. split; [auto|]. rewrite E'. do 2 f_equal. destruct vs as [|v [|]]; try discriminate L.
  f_equal. specialize (D 0%nat v eq_refl). unfold detects in D. cbn [c_type ex_config] in D. rewrite D.
  assert (A : forall k a b m, (a = 3 /\ b = 4 /\ m = 5 \/ a = 1 /\ b = 0 /\ m = 1)%R -> polar a b (M 0%nat k) (TH 0%nat k) -> M 0%nat k = m).
  { intros k a b m H (P1 & P2 & P3 & _). pose proof (sin2_cos2 (TH 0%nat k)) as S. unfold Rsqr in S.
    assert (Q : (M 0%nat k * M 0%nat k = a * a + b * b)%R).
    { rewrite P2, P3. transitivity (M 0%nat k * M 0%nat k * (sin (TH 0%nat k) * sin (TH 0%nat k) + cos (TH 0%nat k) * cos (TH 0%nat k)))%R; [rewrite S|]; ring. }
    clear - H P1 Q. destruct H as [(-> & -> & ->)|(-> & -> & ->)]; nra. }
  change (c_frame (ex_config 1) / 2 + 1) with (0 + 1 + 1). rewrite !rsum_S, rsum_0 by lia. unfold level. cbn [c_whiten ex_config].
  rewrite (A 0 3%R 4%R 5%R) by (first [lra|exact (P 0%nat _ 0 eq_refl ltac:(cbv; split; discriminate))]).
  rewrite (A (0 + 1) 1%R 0%R 1%R) by (first [lra|exact (P 0%nat _ 1 eq_refl ltac:(cbv; split; discriminate))]).
  cbn. lra.
Qed.

(** The level followed after an impulse of 1 with relaxation 1/2 and floor 1/10: a quarter after two frames. *)
Example C70_case : envelope (1 / 2) (1 / 10) (fun t => match t with O => 1 | _ => 0 end)%R 2 = (1 / 4)%R.
Proof.
  rewrite (C70_decay (1/2) (1/10) _ ltac:(lra) ltac:(lra) 0 2) by first [lra | intros [|s] Hs; [lia|reflexivity]].
  cbn [envelope pow]. unfold Rmax. repeat destruct (Rle_dec _ _); lra.
Qed.

(** Doubling the frame doubles the value. *)
Example C71_case : exists o o' o'', df_new (ex_config 1) ex_junk = OK o /\
  df_calls o [Bins [3; 1]%R [4; 0]%R] = OK (o', [7%R]) /\ df_calls o (map (louder 2) [Bins [3; 1]%R [4; 0]%R]) = OK (o'', [(2 * 7)%R]).
Proof.
  destruct (ex_ok 1) as (C & J). destruct (C71_gain (ex_config 1) ex_junk [Bins [3; 1]%R [4; 0]%R] 2 C eq_refl J) as (o & o1 & o2 & vs & E & E1 & E2); [|lra|].
  { repeat constructor; cbv; discriminate. }
  destruct C69_case as (o' & o3 & X & Y). rewrite E in X. injection X as <-. rewrite E1 in Y. injection Y as <- ->.
  exists o, o1, o2. auto.
Qed.
