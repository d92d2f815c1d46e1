(** Smoothing of a detection function and picking of its peaks. *)
From Coq Require Import List ZArith Reals.
From Verif.Base Require Import Imp RealOps.
From Verif.Signal Require Import FilterSpec FiltFiltSpec.
From Verif.Maths Require Import MedianSpec RealSpec NormSpec.
Import ListNotations.
Open Scope Z_scope.

(** m is the median of the values in l: the middle one, or halfway between the two middle ones. *)
Definition is_median (l : list R) (m : R) : Prop :=
  exists u v, is_kth Rltb (zlen l / 2) l u /\ is_kth Rltb ((zlen l - 1) / 2) l v /\ m = ((u + v) / 2)%R.

(** The values f from [pre] before to [post] after position t, as far as they lie in 0 .. n-1. *)
Definition around (n pre post : Z) (f : Z -> R) (t : Z) : list R :=
  let first := Z.max 0 (t - pre) in let last := Z.min (n - 1) (t + post) in
  ztab (last - first + 1) (fun j => f (first + j)).

(** [d] is [src] with its minimum subtracted, divided by its power mean of order alpha. *)
Definition conditioned (n alpha : Z) (src d : Z -> R) : Prop :=
  exists mn N, is_min n src mn /\ is_power_mean n alpha src N /\ N <> 0%R /\
    forall i, 0 <= i < n -> d i = ((src i - mn) / N)%R.

(** [out] is [r] less its running median and a constant, clipped at 0 if asked. *)
Definition thresholded (n pre post : Z) (positive : bool) (delta : R) (r out : Z -> R) : Prop :=
  forall t, 0 <= t < n -> exists m, is_median (around n pre post r t) m /\
    out t = (if positive then Rmax 0 (r t - m - delta) else r t - m - delta)%R.

(** i is a strict local maximum of s with positive value, away from the ends. *)
Definition is_peak (n : Z) (s : Z -> R) (i : Z) : Prop :=
  2 <= i < n - 2 /\ (s (i - 1)%Z < s i)%R /\ (s (i + 1)%Z < s i)%R /\ (0 < s i)%R.

(** Height at the middle, and leading coefficient, of the least-squares parabola through the five
    values around i. *)
Definition parabola_height (s : Z -> R) (i : Z) : R :=
  ((-3 * s (i - 2)%Z + 12 * s (i - 1)%Z + 17 * s i + 12 * s (i + 1)%Z - 3 * s (i + 2)%Z) / 35)%R.
Definition parabola_bend (s : Z -> R) (i : Z) : R :=
  ((2 * s (i - 2)%Z - s (i - 1)%Z - 2 * s i - s (i + 1)%Z + 2 * s (i + 2)%Z) / 14)%R.

(** What PeakPicking reports. *)
Definition is_onset (n : Z) (qa qc : R) (s : Z -> R) (i : Z) : Prop :=
  is_peak n s i /\ ((parabola_bend s i < - qa)%R \/ (qc < parabola_height s i)%R).

(** Increasing lists. *)
Fixpoint increasing (l : list Z) : Prop :=
  match l with
  | [] => True
  | x :: t => Forall (fun y => x < y) t /\ increasing t
  end.

(** The effect of one smoothing: [d] the conditioned input, [r] the filtered signal, [out] the
    caller's buffer [dst] with its first n values replaced. *)
Definition smoothing (n pre post alpha : Z) (positive : bool) (delta : R) (src dst d r out : list R) : Prop :=
  zlen d = n /\ zlen r = n /\ zlen out = zlen dst /\ conditioned n alpha (zn 0%R src) (zn 0%R d) /\
  thresholded n pre post positive delta (zn 0%R r) (zn 0%R out) /\
  skipn (Z.to_nat n) out = skipn (Z.to_nat n) dst.
Fixpoint smoothings (n pre post alpha : Z) (positive : bool) (delta : R)
    (calls : list (list R * list R * list R)) (ds rs outs : list (list R)) : Prop :=
  match calls, ds, rs, outs with
  | [], [], [], [] => True
  | (_, src, dst) :: calls, d :: ds, r :: rs, out :: outs =>
      smoothing n pre post alpha positive delta src dst d r out /\ smoothings n pre post alpha positive delta calls ds rs outs
  | _, _, _, _ => False
  end.

(** [r] is [d] filtered forwards and backwards with reflected ends, the forward pass starting from
    whatever an earlier response (xs, ys) of the same filter left behind. *)
Definition filtered_on (a b xs ys d r : list R) : Prop :=
  let p := 3 * (zlen b - 1) in
  exists y z, zlen y = zlen d + 2 * p /\
    is_response 0%R Rplus Rminus Rmult a b (xs ++ extended 0%R 2%R Rminus Rmult p d) (ys ++ y) /\
    is_response 0%R Rplus Rminus Rmult a b (rev y) z /\
    r = firstn (length d) (skipn (Z.to_nat p) (rev z)).
