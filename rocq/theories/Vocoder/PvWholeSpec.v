(** What the phase vocoder is held to in IEEE doubles. *)
From Coq Require Import Reals ZArith List.
From Flocq Require Import Core.
From Verif.Base Require Import Imp RealOps Double.
From Verif.Fft Require Import FftSpec FftDouble FftrDouble FftrDoubleSpec.
From Verif.Vocoder Require Import PvSpec PvWholeDouble.
Import ListNotations.
Open Scope R_scope.

(** What is asked of the C library's atan2(y, x): a finite angle of magnitude at most 4, in the
    direction of (x, y) up to 2^-50.  Nothing is asked of the direction at the origin. *)
Definition accurate_angle (datan2 : double -> double -> double) : Prop :=
  forall y x, finite y -> finite x ->
    let r := sqrt (dval x * dval x + dval y * dval y) in let th := dval (datan2 y x) in
    finite (datan2 y x) /\ Rabs th <= 4 /\
    Rabs (r * cos th - dval x) <= 8 * uro * r /\ Rabs (r * sin th - dval y) <= 8 * uro * r.

(** The arrays of a call are long enough. *)
Definition source_room (n : Z) (s : dsource) : Prop :=
  match s with Samples src => (n <= zlen src)%Z | Bins re im => (n / 2 + 1 <= zlen re)%Z /\ (n / 2 + 1 <= zlen im)%Z end.
Definition frame_room (n : Z) (f : dframe) : Prop :=
  source_room n (fr_src f) /\ (n / 2 + 1 <= zlen (fr_mag f))%Z /\ (n / 2 + 1 <= zlen (fr_theta f))%Z /\ (n / 2 + 1 <= zlen (fr_out f))%Z.

(** Finite samples of magnitude at most B, or finite bins with parts of magnitude at most n B. *)
Definition source_bounded (n : Z) (B : R) (s : dsource) : Prop :=
  match s with
  | Samples src => real_bounded n B src
  | Bins re im => forall k, (0 <= k <= n / 2)%Z ->
      finite (zn d0 re k) /\ finite (zn d0 im k) /\ Rabs (dval (zn d0 re k)) <= IZR n * B /\ Rabs (dval (zn d0 im k)) <= IZR n * B
  end.

(** The bin which a call is to describe: that of the half-rotated samples, or the one given. *)
Definition source_re (n : Z) (s : dsource) (k : Z) : R :=
  match s with
  | Samples src => alternate k * dft_re n (fun j => dval (zn d0 src j)) (fun _ => 0) k
  | Bins re _ => dval (zn d0 re k)
  end.
Definition source_im (n : Z) (s : dsource) (k : Z) : R :=
  match s with
  | Samples src => alternate k * dft_im n (fun j => dval (zn d0 src j)) (fun _ => 0) k
  | Bins _ im => dval (zn d0 im k)
  end.
(** Error factors of the two kinds of call: magnitude, and the bin rebuilt from magnitude and phase. *)
Definition mag_factor (w : R) (s : dsource) : R := match s with Samples _ => 181 * w | Bins _ _ => 5 end.
Definition bin_factor (w : R) (s : dsource) : R := match s with Samples _ => 141 * w | Bins _ _ => 17 end.

(** Magnitude and phase describe re + i im: the magnitude within [e1], and what they stand for within [e2]. *)
Definition polar_within (e1 e2 re im mag th : R) : Prop :=
  Rabs (mag - sqrt (re * re + im * im)) <= e1 /\ Rabs (mag * cos th - re) <= e2 /\ Rabs (mag * sin th - im) <= e2.

(** The array [l'] is [l] except for its first m places. *)
Definition writes (m : Z) (l l' : list double) : Prop := zlen l' = zlen l /\ forall k, (m <= k)%Z -> zn d0 l' k = zn d0 l k.

(** The magnitudes and phases returned for one frame, for any bound B its data respect. *)
Definition describes (n : Z) (w : R) (f : dframe) (r : dresult) : Prop :=
  writes (n / 2 + 1) (fr_mag f) (rs_mag r) /\ writes (n / 2 + 1) (fr_theta f) (rs_theta r) /\ writes (n / 2 + 1) (fr_out f) (rs_out r) /\
  forall B, bpow radix2 (-400) <= B <= bpow radix2 450 -> source_bounded n B (fr_src f) ->
    forall k, (0 <= k <= n / 2)%Z ->
      finite (zn d0 (rs_mag r) k) /\ finite (zn d0 (rs_theta r) k) /\ Rabs (dval (zn d0 (rs_theta r) k)) <= 4 /\
      polar_within (mag_factor w (fr_src f) * uro * IZR n * B) (bin_factor w (fr_src f) * uro * IZR n * B)
        (source_re n (fr_src f) k) (source_im n (fr_src f) k) (dval (zn d0 (rs_mag r) k)) (dval (zn d0 (rs_theta r) k)).

(** A frame with arrays long enough whose data respect some bound. *)
Definition frame_bounded (n : Z) (f : dframe) : Prop :=
  frame_room n f /\ exists B, bpow radix2 (-400) <= B <= bpow radix2 450 /\ source_bounded n B (fr_src f).

(** A phase vocoder in use: constructed (the buffers hold anything), then any calls with arrays long enough. *)
Inductive voc_in_use (dcos dsin : double -> double) (datan2 : double -> double -> double) (n hop : Z) : dvoc -> Prop :=
| voc_new j1 j2 jc jt jr ji o : zlen j1 = (n / 2)%Z -> zlen j2 = (n / 2)%Z -> zlen jc = n -> zlen jt = n -> zlen jr = n -> zlen ji = n ->
    dvoc_new dcos dsin n hop j1 j2 jc jt jr ji = OK o -> voc_in_use dcos dsin datan2 n hop o
| voc_call o f o' r : voc_in_use dcos dsin datan2 n hop o -> frame_room n f -> dvoc_process datan2 o f = OK (o', r) ->
    voc_in_use dcos dsin datan2 n hop o'
| voc_reset o o' : voc_in_use dcos dsin datan2 n hop o -> dvoc_reset o = OK o' -> voc_in_use dcos dsin datan2 n hop o'.
(** One which has just been constructed or reset. *)
Definition voc_fresh (dcos dsin : double -> double) (datan2 : double -> double -> double) (n hop : Z) (o : dvoc) : Prop :=
  (exists j1 j2 jc jt jr ji, zlen j1 = (n / 2)%Z /\ zlen j2 = (n / 2)%Z /\ zlen jc = n /\ zlen jt = n /\ zlen jr = n /\ zlen ji = n /\
     dvoc_new dcos dsin n hop j1 j2 jc jt jr ji = OK o) \/
  exists o0, voc_in_use dcos dsin datan2 n hop o0 /\ dvoc_reset o0 = OK o.
