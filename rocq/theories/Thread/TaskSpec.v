(** What a user of AsynchronousTask relies on, in terms of the calls made, the runs of
    performTask and the returns. *)
From Coq Require Import List ZArith Bool.
From Verif.Base Require Import Imp.
From Verif.Thread Require Import TaskModel.
Import ListNotations.

Definition visible (e : event) : list event := match e with Tau => [] | _ => [e] end.

(** Executions from the constructed object: any scheduling of the two threads, with the
    visible events in order. *)
Inductive exec (pf : platform) (careful : bool) : list event -> st -> Prop :=
| exec_new : exec pf careful [] st_new
| exec_step tr s e s' : exec pf careful tr s -> In (e, OK s') (steps pf careful s) ->
    exec pf careful (tr ++ visible e) s'.

(** The events that matter for completion, leaving out the moment awaitTask is called. *)
Definition not_await (e : event) : bool := match e with CallAwait => false | _ => true end.

(** One round: startTask is called; performTask runs once; awaitTask returns. *)
Definition round : list event := [CallStart; PerformBegin; PerformEnd; RetAwait].

(** Any number of rounds, then destruction. *)
Definition lifetime (n : nat) : list event := concat (repeat round n) ++ [CallDestroy; Destroyed].

(** The trace is the beginning of a run of complete rounds, in which awaitTask returns only
    after performTask has been run to its end, exactly once, for that startTask. *)
Definition in_order (tr : list event) : Prop :=
  exists n rest, filter not_await tr ++ rest = lifetime n.

(** Steps which are not the owner's decision to make a new call. *)
Definition is_call (e : event) : bool :=
  match e with CallStart | CallAwait | CallDestroy => true | _ => false end.

Definition internal (pf : platform) (careful : bool) (s s' : st) : Prop :=
  exists e, is_call e = false /\ In (e, OK s') (steps pf careful s).

(** Sequences of internal steps. *)
Inductive runs (pf : platform) (careful : bool) : nat -> st -> st -> Prop :=
| runs_0 s : runs pf careful 0 s s
| runs_S n s s' s'' : internal pf careful s s' -> runs pf careful n s' s'' ->
    runs pf careful (S n) s s''.

(** A call is in progress. *)
Definition calling (s : st) : Prop := cp s <> Idle /\ cp s <> Started /\ cp s <> Gone.

(** Nothing can happen any more although a call is in progress. *)
Definition deadlock (pf : platform) (careful : bool) (s : st) : Prop :=
  calling s /\ steps pf careful s = [].
