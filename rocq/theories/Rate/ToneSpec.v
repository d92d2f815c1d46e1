(** Sampled tones. *)
From Coq Require Import List ZArith Reals.
Import ListNotations.
From Verif.Base Require Import Imp.
Open Scope R_scope.

(** Amplitude A, angular frequency w per sample, phase p. *)
Definition tone (A w p : R) (t : Z) : R := A * cos (w * IZR t + p).

(** A sum of tones, given by amplitude, frequency and phase; its total amplitude. *)
Definition chord (l : list (R * R * R)) (t : Z) : R := fold_right (fun '(A, w, p) s => tone A w p t + s) 0 l.
Definition total (l : list (R * R * R)) : R := fold_right (fun '(A, _, _) s => Rabs A + s) 0 l.

(** The components after a system that multiplies frequencies by [f], with gain [g] and
    phase shift [s]. *)
Definition through (f : R) (g s : R -> R) (l : list (R * R * R)) : list (R * R * R) :=
  map (fun '(A, w, p) => (g w * A, f * w, p + s w)) l.

(** The samples of [x] are those of [f]; from sample t0 on, [x] is within eps of [f]. *)
Definition sampled (f : Z -> R) (x : list R) : Prop := forall t, (0 <= t < zlen x)%Z -> zn 0 x t = f t.
Definition near (t0 : Z) (eps : R) (f : Z -> R) (x : list R) : Prop :=
  forall t, (0 <= t)%Z -> (t0 <= t < zlen x)%Z -> Rabs (zn 0 x t - f t) <= eps.
