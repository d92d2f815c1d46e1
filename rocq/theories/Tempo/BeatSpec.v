(** What calculateBeats is for: a best chain of beats. *)
From Coq Require Import List ZArith Reals Lia Bool.
From Verif.Base Require Import Imp RealOps.
Import ListNotations.
Open Scope Z_scope.

Fixpoint increasing (l : list Z) : Prop :=
  match l with
  | x :: (y :: _) as t => x < y /\ increasing t
  | _ => True
  end.
Definition within (lo hi : Z) (l : list Z) : Prop := Forall (fun x => lo <= x < hi) l.

(** The distance between a beat and the next, given the period [p] (in frames) at the later of
    the two, is between half a period and two periods. *)
Definition admissible (p : R) (d : Z) : Prop := (p / 2 - / 2 < IZR d /\ IZR d <= 2 * p)%R /\ 1 <= d.

(** Preference for a distance [d] close to the period: log-Gaussian. *)
Definition log_gauss (tightness p : R) (d : Z) : R :=
  exp (- / 2 * (tightness * ln (IZR d / p)) ^ 2)%R.

(** A chain of beats, latest first: score (1-alpha)*df at the beat plus alpha times the weighted
    score of the chain before it. *)
Fixpoint chain_score (alpha : R) (w : R -> Z -> R) (df : Z -> R) (period : Z -> R) (c : list Z) : R :=
  match c with
  | [] => 0
  | i :: t => (1 - alpha) * df i +
      match t with [] => 0 | j :: _ => alpha * (w (period i) (i - j)%Z * chain_score alpha w df period t) end
  end%R.
Fixpoint chain_ok (period : Z -> R) (c : list Z) : Prop :=
  match c with
  | i :: (j :: _) as t => admissible (period i) (i - j) /\ chain_ok period t
  | i :: [] => True
  | [] => False
  end.
(** A chain inside the data. *)
Definition chain (n : Z) (period : Z -> R) (c : list Z) : Prop := chain_ok period c /\ within 0 n c.
