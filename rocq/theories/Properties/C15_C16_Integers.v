(** C15, C16, C45: integer helpers of MathUtilities (maths/MathUtilities.cpp). *)
From Coq Require Import List ZArith Lia Bool.
From Verif.Base Require Import Imp.
From Verif.Maths Require Import IntModel IntSpec IntProofs.
Import ListNotations.
Open Scope Z_scope.

(** C15: power-of-two helpers. *)
Theorem C15_isPowerOfTwo : forall x, isPowerOfTwo x = true <-> power_of_two x.
Proof. exact isPow2_spec. Qed.
Print Assumptions C15_isPowerOfTwo.

Theorem C15_nextPowerOfTwo :
  forall x, x <= 2 ^ 30 -> exists p, nextPowerOfTwo x = OK p /\
    (1 <= x -> is_next_power x p) /\ (x < 1 -> p = 1).
Proof. exact next_spec. Qed.
Print Assumptions C15_nextPowerOfTwo.

(** Beyond 2^30 the result does not fit an int: the shift overflows, always. *)
Theorem C15_nextPowerOfTwo_overflow : forall x, 2 ^ 30 < x <= INT_MAX -> nextPowerOfTwo x = UB.
Proof. exact next_overflow. Qed.
Print Assumptions C15_nextPowerOfTwo_overflow.

Theorem C15_previousPowerOfTwo :
  forall x, is_int x -> exists p, previousPowerOfTwo x = OK p /\
    (1 <= x -> is_previous_power x p) /\ (x < 1 -> p = 1).
Proof. exact previous_spec. Qed.
Print Assumptions C15_previousPowerOfTwo.

(** nearestPowerOfTwo: all ints up to 2^30 but the two lowest. *)
Theorem C15_nearestPowerOfTwo_partial :
  forall x, 2 - 2 ^ 31 <= x <= 2 ^ 30 ->
  exists p, nearestPowerOfTwo x = OK p /\ is_nearest_power x p.
Proof. exact nearest_spec. Qed.
Print Assumptions C15_nearestPowerOfTwo_partial.

(** "No overflow for x <= 2^30" fails for nearestPowerOfTwo at the lowest ints (x - 1 and 1 - x). *)
Theorem C15_nearestPowerOfTwo_overflow_refuted :
  exists x, is_int x /\ x <= 2 ^ 30 /\ nearestPowerOfTwo x = UB.
Proof. exists INT_MIN. vm_compute. repeat split; discriminate. Qed.
Print Assumptions C15_nearestPowerOfTwo_overflow_refuted.

Example C15_case : nextPowerOfTwo 5 = OK 8 /\ previousPowerOfTwo 5 = OK 4 /\
  nearestPowerOfTwo 6 = OK 8 /\ nearestPowerOfTwo 5 = OK 4.
Proof. vm_compute. auto. Qed.

(** C16: circShift rotates right; a shift of zero or less does nothing. *)
Theorem C16_circShift :
  forall (T : Type) (z : T) d n s, 1 <= n <= zlen d -> 0 <= s ->
    exists d', circShift d n s = OK d' /\ rotated z n s d d'.
Proof. exact @circShift_spec. Qed.
Print Assumptions C16_circShift.

Theorem C16_rotation_unique :
  forall (T : Type) (z : T) n s d d1 d2,
    1 <= n <= zlen d -> rotated z n s d d1 -> rotated z n s d d2 -> d1 = d2.
Proof. exact @rotated_unique. Qed.
Print Assumptions C16_rotation_unique.

Theorem C16_circShift_negative :
  forall (T : Type) (d : list T) n s, 1 <= n -> s <= 0 -> circShift d n s = OK d.
Proof. exact @circShift_negative. Qed.
Print Assumptions C16_circShift_negative.

Example C16_case : circShift [1; 2; 3; 4; 5] 4 5 = OK [4; 1; 2; 3; 5].
Proof. reflexivity. Qed.

(** C45: gcd of positive ints. *)
Theorem C45_gcd :
  forall fuel a b, 0 <= a <= INT_MAX -> 1 <= b <= INT_MAX -> b < Z.of_nat fuel ->
    gcd_c fuel a b = OK (Z.gcd a b).
Proof. exact gcd_spec. Qed.
Print Assumptions C45_gcd.

Example C45_case : gcd_c 50 48 36 = OK 12.
Proof. reflexivity. Qed.
