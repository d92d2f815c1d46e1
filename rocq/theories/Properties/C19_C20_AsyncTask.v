(** C19, C20, C50: AsynchronousTask (thread/AsynchronousTask.h, thread/Thread.cpp). *)
From Coq Require Import List ZArith Bool Lia.
From Verif.Base Require Import Imp.
From Verif.Thread Require Import TaskModel TaskSpec TaskProofs.
Import ListNotations.
Local Open Scope nat_scope.

(** C19 on Windows, and on pthreads as long as pthread_cond_wait has no spurious wake-up: for
    every scheduling and every number of rounds, startTask, one complete run of performTask and
    the return of awaitTask happen in this order. *)
Theorem C19_await_after_completion_partial :
  forall pf tr s, pf <> Pthread true -> exec pf true tr s -> in_order tr.
Proof. exact task_in_order. Qed.
Print Assumptions C19_await_after_completion_partial.

Theorem C19_await_after_completion_windows :
  forall tr s, exec Windows true tr s -> in_order tr.
Proof. intros tr s. exact (task_in_order Windows tr s ltac:(discriminate)). Qed.
Print Assumptions C19_await_after_completion_windows.

(** Two rounds and destruction. *)
Example C19_case :
  exists s, exec (Pthread false) true
    [CallStart; PerformBegin; CallAwait; PerformEnd; RetAwait;
     CallStart; CallAwait; PerformBegin; PerformEnd; RetAwait; CallDestroy; Destroyed] s.
Proof.
  eexists. eapply schedule_new with
    (l := repeat 0 6 ++ repeat 1 4 ++ repeat 0 10 ++ [2; 2] ++ repeat 0 21 ++ [1] ++ repeat 0 16).
  vm_compute. reflexivity.
Qed.

(** C19 is false of the code on pthreads: awaitTask does not test any flag after the wait, so a
    spurious wake-up (which POSIX allows) makes it return before performTask has begun. *)
Theorem C19_await_after_completion_refuted :
  exists tr s, exec (Pthread true) true tr s /\ tr = [CallStart; CallAwait; RetAwait] /\ ~ in_order tr.
Proof.
  do 2 eexists. split; [eapply schedule_new with (l := repeat 0 11); vm_compute; reflexivity|].
  split; [reflexivity|]. intros (n & rest & H). destruct n as [|n]; discriminate H.
Qed.
Print Assumptions C19_await_after_completion_refuted.

(** C20, same conditions: no step is undefined (mutexes are unlocked by their holders, and
    destroyed unlocked); and however the threads are scheduled, at most 70 steps after any point a
    state is reached where every call has returned.  (performTask is assumed to return; the worker
    and the owner are never both blocked while a call is in progress.) *)
Theorem C20_no_deadlock_partial :
  forall pf tr s, pf <> Pthread true -> exec pf true tr s ->
    (forall e r, In (e, r) (steps pf true s) -> exists s', r = OK s') /\
    ~ deadlock pf true s /\
    forall n s', runs pf true n s s' ->
      n <= 70 /\ ((forall s'', ~ internal pf true s' s'') -> ~ calling s').
Proof.
  intros pf tr s H He. splits.
  - intros e r. exact (task_safe pf tr s e r H He).
  - exact (task_live pf tr s H He).
  - exact (task_returns pf tr s H He).
Qed.
Print Assumptions C20_no_deadlock_partial.

(** A state in which awaitTask is blocked, the worker inside performTask. *)
Example C20_case :
  exists tr s, exec Windows true tr s /\ cp s = A_sleep /\ wp s = P_busy.
Proof.
  do 2 eexists. split; [eapply schedule_new with (l := [0; 0; 0; 0; 0; 0; 0; 0; 0; 0; 0; 0]); vm_compute; reflexivity|].
  split; vm_compute; reflexivity.
Qed.

(** C20 is false of the code on pthreads with spurious wake-ups: after one, the next startTask
    holds m_done and wants m_todo while the worker holds m_todo and wants m_done. *)
Theorem C20_no_deadlock_refuted :
  exists tr s, exec (Pthread true) true tr s /\ deadlock (Pthread true) true s /\
    cp s = S_todo /\ wp s = Q_lock.
Proof.
  do 2 eexists. split.
  - eapply schedule_new with (l := repeat 0 11 ++ [2; 2; 2; 2; 0; 0; 0]). vm_compute. reflexivity.
  - vm_compute. repeat split; try discriminate.
Qed.
Print Assumptions C20_no_deadlock_refuted.

(** Outside the protocol: destroying the object after startTask without awaitTask blocks for
    ever, on every platform. *)
Theorem C20_destroy_without_await_deadlocks :
  forall pf, exists tr s, exec pf false tr s /\ deadlock pf false s /\ cp s = D_join.
Proof.
  intros [[]|]; do 2 eexists;
    (split; [eapply schedule_new with (l := [0; 0; 0; 0; 0; 0; 1; 0; 0; 0; 0; 0; 0; 0]); vm_compute; reflexivity|]);
    vm_compute; repeat split; try discriminate.
Qed.
Print Assumptions C20_destroy_without_await_deadlocks.

(** C50: the flags shared by the two threads are only touched with m_todo held, on every platform,
    with or without spurious wake-ups, even if the owner destroys the object after startTask. *)
Theorem C50_flags_under_lock :
  forall pf careful tr s, exec pf careful tr s ->
    (caller_touches s = true -> owner (todo s) = Some Caller) /\
    (worker_touches s = true -> owner (todo s) = Some Worker).
Proof. exact task_flags. Qed.
Print Assumptions C50_flags_under_lock.

Example C50_case :
  exists tr s, exec (Pthread false) true tr s /\ worker_touches s = true /\ inTask s = true.
Proof.
  do 2 eexists. split; [eapply schedule_new with (l := [0; 0; 0; 0; 0; 0; 1]); vm_compute; reflexivity|].
  split; vm_compute; reflexivity.
Qed.
