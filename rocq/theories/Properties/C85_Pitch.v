From Coq Require Import Reals ZArith Lia Lra.
From Verif.Base Require Import Imp RealOps.
From Verif.Pitch Require Import PitchModel PitchSpec PitchProofs.
Open Scope R_scope.

(** C85: pitch and cents describe the frequency exactly, at all frequencies. *)
Theorem C85_exact :
  forall f a, float_range f -> float_range a ->
  exists m c, getPitchForFrequency f a = OK (m, c) /\
    IZR m + c / 100 = semitones f a /\ getFrequencyForPitch m c a = f.
Proof. exact pitch_exact. Qed.
Print Assumptions C85_exact.

Theorem C85_nearest :
  forall f a, float_range f -> float_range a -> -1 / 2 <= semitones f a ->
  exists m c, getPitchForFrequency f a = OK (m, c) /\ IZR m + c / 100 = semitones f a /\ -50 <= c < 50.
Proof. exact pitch_nearest. Qed.
Print Assumptions C85_nearest.

Theorem C85_round_trip :
  forall m c a, (0 <= m)%Z -> -50 <= c < 50 -> float_range a -> float_range (getFrequencyForPitch m c a) ->
  getPitchForFrequency (getFrequencyForPitch m c a) a = OK (m, c).
Proof. exact pitch_round_trip. Qed.
Print Assumptions C85_round_trip.

Theorem C85_monotone :
  forall f g a, float_range f -> float_range g -> float_range a -> -1 / 2 <= semitones f a -> f <= g ->
  exists m c m' c', getPitchForFrequency f a = OK (m, c) /\ getPitchForFrequency g a = OK (m', c') /\ (m <= m')%Z.
Proof. exact pitch_monotone. Qed.
Print Assumptions C85_monotone.

Theorem C85_octave :
  forall f a, float_range f -> float_range (2 * f) -> float_range a -> -1 / 2 <= semitones f a ->
  exists m c, getPitchForFrequency f a = OK (m, c) /\ getPitchForFrequency (2 * f) a = OK ((m + 12)%Z, c).
Proof. exact pitch_octave. Qed.
Print Assumptions C85_octave.

(** Not for pitches below 0: pitch -1 and 25 cents comes back as 75 cents below pitch 0. *)
Theorem C85_round_trip_all_pitches_refuted :
  exists m c a, -50 <= c < 50 /\ float_range a /\ float_range (getFrequencyForPitch m c a) /\
    exists m' c', getPitchForFrequency (getFrequencyForPitch m c a) a = OK (m', c') /\ m' <> m /\ ~ (-50 <= c').
Proof.
  exists (-1)%Z, 25, 440. destruct pitch_negative_case as [H1 H2]. split; [lra|]. split; auto. split; auto.
  exists 0%Z, (-75). split; [now apply pitch_negative|]. split; [discriminate|lra].
Qed.
Print Assumptions C85_round_trip_all_pitches_refuted.

(** Concert A is pitch 69. *)
Example C85_case : float_range 440 /\ getPitchForFrequency 440 440 = OK (69%Z, 0).
Proof.
  destruct pitch_negative_case as [H _]. split; auto.
  replace 440 with (getFrequencyForPitch 69 0 440) at 1.
  - apply pitch_round_trip; auto; [lia|lra|]. unfold getFrequencyForPitch.
    replace ((69 + 0 / 100 - 69) / 12) with 0 by field. rewrite Rpower_O by lra. now rewrite Rmult_1_r.
  - unfold getFrequencyForPitch. replace ((69 + 0 / 100 - 69) / 12) with 0 by field. rewrite Rpower_O by lra. ring.
Qed.
