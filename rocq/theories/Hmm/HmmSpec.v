(** Hidden Markov models: probabilities of state sequences given the observations. *)
From Coq Require Import List ZArith Reals Lia.
From Verif.Base Require Import Imp RealOps.
Import ListNotations.
Open Scope Z_scope.

(** The sum of [f] over all sequences of [n] states out of 0..N-1. *)
Fixpoint psum (N : Z) (n : nat) (f : list Z -> R) : R :=
  match n with
  | O => f []
  | S k => rsum N (fun i => psum N k (fun q => f (i :: q)))
  end.

Section Model.
  (** Initial and transition probabilities; b t i is the density of observation t in state i. *)
  Variables (p0 : Z -> R) (a b : Z -> Z -> R).

  (** Joint density of states [q] and their observations, from time [t] on and coming from state [i]. *)
  Fixpoint joint (i t : Z) (q : list Z) : R :=
    match q with
    | [] => 1
    | j :: r => a i j * b t j * joint j (t + 1)%Z r
    end%R.
  (** ... from the start. *)
  Definition weight (q : list Z) : R :=
    match q with [] => 1 | i :: r => p0 i * b 0%Z i * joint i 1 r end%R.

  Variables (N T : Z).
  (** Density of the observations. *)
  Definition likelihood : R := psum N (Z.to_nat T) weight.
  (** Probability of state i at time t, and of states i, j at times t, t+1, given all observations. *)
  Definition in_state (t i : Z) : R :=
    (psum N (Z.to_nat T) (fun q => if Z.eqb (zn 0%Z q t) i then weight q else 0) / likelihood)%R.
  Definition in_states (t i j : Z) : R :=
    (psum N (Z.to_nat T) (fun q => if andb (Z.eqb (zn 0%Z q t) i) (Z.eqb (zn 0%Z q (t + 1)) j) then weight q else 0) / likelihood)%R.
  (** Expected number of moves from i to j, and of times in i before the last. *)
  Definition expected_moves (i j : Z) : R := rsum (T - 1) (fun t => in_states t i j).
  Definition expected_visits (i : Z) : R := rsum (T - 1) (fun t => in_state t i).
End Model.

Definition nonneg (n : Z) (f : Z -> R) : Prop := forall i, 0 <= i < n -> (0 <= f i)%R.
Definition nonneg2 (n k : Z) (f : Z -> Z -> R) : Prop := forall i j, 0 <= i < n -> 0 <= j < k -> (0 <= f i j)%R.
(** A probability distribution on 0..n-1. *)
Definition distribution_on (n : Z) (f : Z -> R) : Prop := nonneg n f /\ rsum n f = 1%R.

(** Sequences of states and their value: with [score] operations, left to right. *)
Section Value.
  Context {T : Type} (add : T -> T -> T) (l0 : Z -> T) (la lb : Z -> Z -> T).
  Fixpoint value (q : Z -> Z) (t : nat) : T :=
    match t with
    | O => add (l0 (q 0)) (lb 0 (q 0))
    | S k => add (add (value q k) (la (q (Z.of_nat k)) (q (Z.of_nat (S k))))) (lb (Z.of_nat (S k)) (q (Z.of_nat (S k))))
    end.
End Value.
Definition states (N : Z) (n : Z) (q : Z -> Z) : Prop := forall t, 0 <= t < n -> 0 <= q t < N.

(** Gaussian log density of x with mean m, inverse covariance ic and determinant of the covariance det. *)
Definition mahal (L : Z) (x m : Z -> R) (ic : Z -> Z -> R) : R :=
  rsum L (fun i => rsum L (fun j => ic i j * (x j - m j)) * (x i - m i))%R.
Definition log_density (L : Z) (x m : Z -> R) (ic : Z -> Z -> R) (det : R) : R :=
  (- (1 / 2) * (mahal L x m ic + IZR L * ln (2 * PI) + ln det))%R.
