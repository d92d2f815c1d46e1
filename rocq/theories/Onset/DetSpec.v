(** What the onset detection functions are specified to measure, in terms of the spectra of the
    frames handed over so far. *)
From Coq Require Import List ZArith Reals Bool.
From Verif.Base Require Import Imp RealOps.
From Verif.Fft Require Import FftSpec.
From Verif.Vocoder Require Import PvSpec.
From Verif.Onset Require Import DetModel.
Import ListNotations.
Open Scope R_scope.

(** The spectrum of a frame: that of the Hann-windowed samples taken about the middle of the frame,
    or the bins as given. *)
Definition hann (n i : Z) : R := 1 / 2 - 1 / 2 * cos (2 * PI * IZR i / IZR n).
Definition spectrum_re (n : Z) (f : frame) (k : Z) : R :=
  match f with
  | Samples x => alternate k * dft_re n (fun j => zn 0 x j * hann n j) (fun _ => 0) k
  | Bins re _ => zn 0 re k
  end.
Definition spectrum_im (n : Z) (f : frame) (k : Z) : R :=
  match f with
  | Samples x => alternate k * dft_im n (fun j => zn 0 x j * hann n j) (fun _ => 0) k
  | Bins _ im => zn 0 im k
  end.
Definition frame_ok (n : Z) (f : frame) : Prop :=
  match f with
  | Samples x => (n <= zlen x)%Z
  | Bins re im => (n / 2 + 1 <= zlen re)%Z /\ (n / 2 + 1 <= zlen im)%Z
  end.

(** Negative settings stand for the defaults. *)
Definition relax_of (c : dfconfig) : R := if Rltb (c_relax c) 0 then 9997 / 10000 else c_relax c.
Definition floor_of (c : dfconfig) : R := if Rltb (c_floor c) 0 then 1 / 100 else c_floor c.

(** Adaptive whitening: the level followed in a bin whose magnitudes are [m 0], [m 1], ...; it jumps
    up with the magnitude, falls back geometrically, and never goes below the floor. *)
Fixpoint envelope (relax floor : R) (m : nat -> R) (t : nat) : R :=
  let p := match t with O => 0 | S t' => envelope relax floor m t' end in
  Rmax floor (Rmax (m t) (relax * p + (1 - relax) * m t)).

(** The magnitude which enters the detection functions. *)
Definition level (c : dfconfig) (M : nat -> Z -> R) (t : nat) (k : Z) : R :=
  if c_whiten c then M t k / envelope (relax_of c) (floor_of c) (fun s => M s k) t else M t k.

(** The value d frames ago; 0 before the first frame. *)
Definition past (F : nat -> Z -> R) (t d : nat) (k : Z) : R := if (t <? d)%nat then 0 else F (t - d)%nat k.

(** [d] is the distance of the angle x from the nearest whole number of turns. *)
Definition off_turn (x d : R) : Prop := d <= PI /\ exists q : Z, d = Rabs (x - IZR q * (2 * PI)).

(** Distance of two complex numbers given by magnitude and angle. *)
Definition apart (m a m' a' : R) : R :=
  sqrt ((m * cos a - m' * cos a') ^ 2 + (m * sin a - m' * sin a') ^ 2).

(** The number of bins k < h which satisfy b. *)
Definition bins_with (h : Z) (b : Z -> bool) : R := rsum h (fun k => if b k then 1 else 0).

(** The value for frame t, given the magnitudes M and arguments TH of the spectra. *)
Definition detects (c : dfconfig) (M TH : nat -> Z -> R) (t : nat) (v : R) : Prop :=
  let h := (c_frame c / 2 + 1)%Z in
  let L := level c M in
  let expected := fun k => 2 * past TH t 1 k - past TH t 2 k in
  match c_type c with
  | 1%Z => v = rsum h (fun k => IZR (k + 1) * L t k)
  | 2%Z => v = rsum h (fun k => sqrt (Rabs (L t k ^ 2 - past L t 1 k ^ 2)))
  | 3%Z => exists dev, (forall k, (0 <= k < h)%Z -> off_turn (TH t k - expected k) (dev k)) /\ v = rsum h dev
  | 4%Z => v = rsum h (fun k => apart (past L t 1 k) (expected k) (L t k) (TH t k))
  | 5%Z => v = bins_with h (fun k => Rltb 0 (past L t 1 k) &&
             Rltb (Rpower 10 (c_rise c / 10) * past L t 1 k ^ 2) (L t k ^ 2))
  | _ => v = 0
  end.

(** M and TH are the magnitudes and arguments of the spectra of the frames. *)
Definition polar_of (n : Z) (fs : list frame) (M TH : nat -> Z -> R) : Prop :=
  forall t f k, nth_error fs t = Some f -> (0 <= k <= n / 2)%Z ->
    polar (spectrum_re n f k) (spectrum_im n f k) (M t k) (TH t k).
