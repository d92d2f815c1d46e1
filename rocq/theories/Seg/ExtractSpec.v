(** What the features of a block of samples are. *)
From Coq Require Import List ZArith QArith Qreals Reals Bool.
From Verif.Base Require Import Imp RealOps.
From Verif.Maths Require Import IntSpec.
From Verif.Rate Require Import Df2tSpec DecimatorModel DecimatorSpec.
From Verif.Fft Require Import Cplx FftSpec.
From Verif.Chroma Require Import CqSpec.
From Verif.Mfcc Require Import MfccSpec.
From Verif.Seg Require Import SegModel ExtractModel.
Import ListNotations.
Open Scope Z_scope.

(** The factor by which the sampling rate is reduced: the next power of two, at most 8. *)
Definition is_factor (internal rate f : Z) : Prop :=
  exists p, is_next_power (Z.max 1 (rate / internal)) p /\ f = Z.min 8 p.

(** [p] is every f-th sample of the filtered [block], the filter having heard [past] before. *)
Definition is_decimated (f : Z) (past block p : list R) : Prop :=
  if f =? 1 then p = block else
  exists ys, (let '(b, a) := coefficients f in
    iir_response 0%R Rplus Rminus Rmult (lead Q2R b) (pairs Q2R b a) (past ++ block) ys) /\
    zlen p = zlen block / f /\ forall i, 0 <= i < zlen p -> zn 0%R p i = zn 0%R ys (zlen past + f * i).

(** Frames of n samples, half overlapping: the first, and as many of the others as end before the last of
    p samples. *)
Definition frame_count (n p count : Z) : Prop :=
  1 <= count /\ (forall k, 1 <= k < count -> k * (n / 2) + n < p) /\ p <= count * (n / 2) + n.
(** Sample t of frame k, zero beyond the end. *)
Definition frame_at (n : Z) (p : list R) (k t : Z) : R := zn 0%R p (k * (n / 2) + t).

Definition mean_of (count : Z) (f : Z -> R) : R := (rsum count f / IZR count)%R.

(** Magnitude of constant-Q bin i of a frame: halves swapped, then windowed. *)
Definition constq_level (fs fmin : R) (bpo : Z) (th : R) (n : Z) (x : Z -> R) (i : Z) : R :=
  cabs (cq_bin fs fmin bpo th n (spectrum n (fun t => cre (x ((t + n / 2) mod n)%Z * hamming n t)%R)) i).
Definition constq_feature (fs fmin : R) (bpo : Z) (th : R) (n : Z) (p : list R) (count i : Z) : R :=
  mean_of count (fun k => constq_level fs fmin bpo th n (frame_at n p k) i).

(** Cepstral coefficient i of a windowed frame. *)
Definition frame_magnitude (n : Z) (x : Z -> R) : Z -> R :=
  magn (dft_re n (fun t => x t * hamming n t)%R (fun _ => 0%R)) (dft_im n (fun t => x t * hamming n t)%R (fun _ => 0%R)).
Definition mfcc_feature (fs n : Z) (p : list R) (count i : Z) : R :=
  mean_of count (fun k => cepstrum 1 fs n (frame_magnitude n (frame_at n p k)) i).

(** *** What a client gets, for given parameters *)
(** The sampling rate aimed at. *)
Definition internal_rate (p : params) : Z := match p_type p with Mfcc => 22050 | _ => 11025 end.
Definition window_samples (p : params) (rate : Z) : Z := Zfloor (p_window p * IZR rate + 1 / 1000).
Definition feature_size (p : params) : Z :=
  match p_type p with Mfcc => 20 | Unknown => 0 | _ => Zceil (IZR (p_bins p) * ln (IZR (p_fmax p) / IZR (p_fmin p)) / ln 2) end.
(** Length of a frame at the reduced rate [fs]. *)
Definition frame_size (p : params) (fs n : Z) : Prop :=
  match p_type p with Mfcc => n = 2048 | _ => is_next_power (Zceil (quality (p_bins p) * IZR fs / IZR (p_fmin p))) n end.
Definition feature (p : params) (fs n : Z) (x : list R) (count i : Z) : R :=
  match p_type p with
  | Mfcc => mfcc_feature fs n x count i
  | _ => constq_feature (IZR fs) (IZR (p_fmin p)) (p_bins p) (54 / 10000) n x count i
  end.
(** [v] is the feature vector of the samples [x] at the reduced rate [fs]. *)
Definition features_of (p : params) (fs : Z) (x v : list R) : Prop :=
  exists n count, frame_size p fs n /\ frame_count n (zlen x) count /\ zlen v = feature_size p /\
    forall i, 0 <= i < feature_size p -> zn 0%R v i = feature p fs n x count i.
(** [v] is the feature vector of [block] for a client that handed over [past] before. *)
Definition is_features (p : params) (rate : Z) (past block v : list R) : Prop :=
  exists f x, is_factor (internal_rate p) rate f /\ is_decimated f past block x /\ features_of p (rate / f) x v.

(** Blocks a client is to hand over: at least a window; exactly a window if the rate is reduced. *)
Definition block_ok (p : params) (rate : Z) (block : list R) : Prop :=
  window_samples p rate <= zlen block /\ (zlen block = window_samples p rate \/ is_factor (internal_rate p) rate 1).
