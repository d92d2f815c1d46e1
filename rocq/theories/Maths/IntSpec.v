From Coq Require Import List ZArith Lia.
From Verif.Base Require Import Imp.
Open Scope Z_scope.

Definition power_of_two (p : Z) : Prop := exists k, 0 <= k /\ p = 2 ^ k.

(** The least power of two not below x, the greatest not above it. *)
Definition is_next_power (x p : Z) : Prop :=
  power_of_two p /\ x <= p /\ forall q, power_of_two q -> x <= q -> p <= q.
Definition is_previous_power (x p : Z) : Prop :=
  power_of_two p /\ p <= x /\ forall q, power_of_two q -> q <= x -> q <= p.
(** The power of two at least distance from x, the higher of two equally near ones. *)
Definition is_nearest_power (x p : Z) : Prop :=
  power_of_two p /\
  forall q, power_of_two q -> Z.abs (p - x) < Z.abs (q - x) \/ (Z.abs (p - x) = Z.abs (q - x) /\ q <= p).

(** [d'] is [d] (of length n) rotated right by s. *)
Definition rotated {T} (z : T) (n s : Z) (d d' : list T) : Prop :=
  zlen d' = zlen d /\
  (forall i, 0 <= i < n -> zn z d' ((i + s) mod n) = zn z d i) /\
  (forall i, n <= i < zlen d -> zn z d' i = zn z d i).
