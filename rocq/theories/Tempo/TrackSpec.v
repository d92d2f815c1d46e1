(** What the beats and tempi of the older tempo tracker are. *)
From Coq Require Import List ZArith Reals.
From Verif.Base Require Import Imp.
Import ListNotations.
Open Scope Z_scope.

(** Block [k] of [lag] positions, and beats that run evenly through it: the first less than one period
    after its start, the last less than one period before its end. *)
Definition even_beats (lag k : Z) (l : list Z) : Prop :=
  exists p first n, 1 <= p <= lag /\ k * lag <= first < k * lag + p /\ 1 <= n /\
    first + (n - 1) * p < (k + 1) * lag <= first + n * p /\ l = ztab n (fun j => first + j * p).

(** Beats made of such runs, one for each of [frames] blocks. *)
Definition blockwise (lag frames : Z) (beats : list Z) : Prop :=
  exists runs, zlen runs = frames /\ beats = concat runs /\ forall k, 0 <= k < frames -> even_beats lag k (zn [] runs k).

(** A tempo is 0 (none found yet) or 5168 divided by a period, between 30 and 180. *)
Definition tempo_value (lag : Z) (x : R) : Prop :=
  x = 0%R \/ exists m, 1 <= m < lag /\ x = (5168 / IZR m)%R /\ (30 <= x <= 180)%R.

(** Number of blocks of [lag] in [n]. *)
Definition blocks (n lag frames : Z) : Prop := (frames - 1) * lag < n <= frames * lag.

Definition increasing (l : list Z) : Prop := forall i j, 0 <= i < j -> j < zlen l -> zn 0 l i < zn 0 l j.
