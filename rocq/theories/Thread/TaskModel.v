(** Model of AsynchronousTask (thread/AsynchronousTask.h) over Condition and Thread
    (thread/Thread.cpp, Windows and pthreads versions): a transition system in which the
    thread owning the object and its worker thread take steps in any order. *)
From Coq Require Import List ZArith Bool.
From Verif.Base Require Import Imp.
Import ListNotations.

(** Which implementation of Condition: pthreads (with or without spurious wake-ups, which POSIX
    allows pthread_cond_wait to have) or Windows mutex and event. *)
Inductive platform := Pthread (spurious : bool) | Windows.

Inductive tid := Caller | Worker.

(** A Condition object (Thread.h:97-144).  [owner]: who holds m_mutex; [locked]: the field
    m_locked; [asleep]: a thread is blocked in pthread_cond_wait (in this program at most one
    thread ever waits on a given Condition); [event]: the Windows auto-reset event is set. *)
Record cond := { owner : option tid; locked : bool; asleep : bool; event_set : bool }.

(** Thread.cpp:180-191, 440-455. *)
Definition cond_new : cond :=
  {| owner := None; locked := false; asleep := false; event_set := false |}.

(** Condition::lock, Thread.cpp:207-217, 468-478; [None] while it blocks.  (m_locked is set
    right after the mutex is obtained; only the holder of the mutex touches it, so this is one
    step.) *)
Definition c_lock (t : tid) (c : cond) : option cond :=
  match owner c with
  | None => Some {| owner := Some t; locked := true; asleep := asleep c; event_set := event_set c |}
  | Some _ => None
  end.

Definition tid_eqb (a b : tid) : bool :=
  match a, b with Caller, Caller | Worker, Worker => true | _, _ => false end.

(** Condition::unlock, Thread.cpp:220-234, 481-495.  Unlocking a mutex held by another thread
    is undefined. *)
Definition c_unlock (t : tid) (c : cond) : res cond :=
  if locked c then
    match owner c with
    | Some t' => if tid_eqb t t' then
        OK {| owner := None; locked := false; asleep := asleep c; event_set := event_set c |}
        else UB
    | None => UB
    end
  else OK c.

(** Condition::signal, Thread.cpp:266-272, 535-541. *)
Definition c_signal (pf : platform) (c : cond) : cond :=
  match pf with
  | Pthread _ => {| owner := owner c; locked := locked c; asleep := false; event_set := event_set c |}
  | Windows => {| owner := owner c; locked := locked c; asleep := asleep c; event_set := true |}
  end.

(** Condition::wait(0), first half: the mutex is released and the thread blocks
    (pthread_cond_wait, Thread.cpp:506; SignalObjectAndWait, Thread.cpp:244). *)
Definition c_sleep (pf : platform) (t : tid) (c : cond) : res cond :=
  match owner c with
  | Some t' => if tid_eqb t t' then
      OK {| owner := None; locked := locked c;
            asleep := match pf with Pthread _ => true | Windows => false end;
            event_set := event_set c |}
      else UB
  | None => UB
  end.

(** Condition::wait(0): the blocked thread leaves the wait: when signalled, or (pthreads with
    spurious wake-ups) at any time; on Windows when the event is set, which resets it. *)
Definition c_wake (pf : platform) (c : cond) : option cond :=
  match pf with
  | Pthread spurious =>
      if asleep c then
        if spurious then Some {| owner := owner c; locked := locked c; asleep := false;
                                 event_set := event_set c |}
        else None
      else Some c
  | Windows =>
      if event_set c then Some {| owner := owner c; locked := locked c; asleep := asleep c;
                                  event_set := false |}
      else None
  end.

(** Program points of the owning thread.  [Idle]: no call in progress, no task started;
    [Started]: startTask has returned, awaitTask has not been called. *)
Inductive cpc :=
| Idle
| S_done | S_todo | S_set | S_sig | S_unl          (* startTask, lines 66-70 *)
| Started
| A_wait | A_sleep | A_woken | A_unl               (* awaitTask, lines 73-74 *)
| D_lock | D_set | D_sig | D_unl | D_join          (* destructor, lines 49-53 *)
| Gone.

(** Program points of the worker thread, lines 81-99. *)
Inductive wpc :=
| W_lock                                           (* 81 *)
| W_test | W_wait | W_sleep | W_woken              (* 83, 84 *)
| W_fin                                            (* 86 *)
| F_lock | F_clear | F_sig | F_unl                 (* 87-90 *)
| P_call | P_busy                                  (* 93: about to call performTask; inside it *)
| Q_lock | Q_clear | Q_sig | Q_unl                 (* 94-97 *)
| W_out                                            (* 99 *)
| W_end.

Record st := { cp : cpc; wp : wpc; todo : cond; done : cond; inTask : bool; finishing : bool }.

(** After the constructor, lines 40-46: the worker thread has been created. *)
Definition st_new : st :=
  {| cp := Idle; wp := W_lock; todo := cond_new; done := cond_new;
     inTask := false; finishing := false |}.

(** What can be seen from outside. *)
Inductive event :=
| Tau                     (* an internal step *)
| CallStart | CallAwait | CallDestroy          (* the owner calls *)
| RetAwait                                     (* awaitTask returns *)
| PerformBegin | PerformEnd                    (* the worker runs performTask *)
| Destroyed.                                   (* the destructor has returned *)

Definition set_c (s : st) (c : cpc) : st :=
  {| cp := c; wp := wp s; todo := todo s; done := done s; inTask := inTask s; finishing := finishing s |}.
Definition set_w (s : st) (w : wpc) : st :=
  {| cp := cp s; wp := w; todo := todo s; done := done s; inTask := inTask s; finishing := finishing s |}.
Definition set_todo (s : st) (c : cond) : st :=
  {| cp := cp s; wp := wp s; todo := c; done := done s; inTask := inTask s; finishing := finishing s |}.
Definition set_done (s : st) (c : cond) : st :=
  {| cp := cp s; wp := wp s; todo := todo s; done := c; inTask := inTask s; finishing := finishing s |}.
Definition set_in (s : st) (b : bool) : st :=
  {| cp := cp s; wp := wp s; todo := todo s; done := done s; inTask := b; finishing := finishing s |}.
Definition set_fin (s : st) (b : bool) : st :=
  {| cp := cp s; wp := wp s; todo := todo s; done := done s; inTask := inTask s; finishing := b |}.

Definition opt {A B} (o : option A) (k : A -> list B) : list B :=
  match o with Some a => k a | None => [] end.

(** ~Condition, Thread.cpp:196-204, 457-465: unlocks if m_locked; destroying a locked mutex is
    undefined. *)
Definition c_destroy (c : cond) : res unit :=
  c <- c_unlock Caller c ;; match owner c with None => OK tt | Some _ => UB end.

(** Steps of the owning thread.  [careful]: it calls awaitTask after each startTask before
    anything else; otherwise it may also destroy the object after startTask. *)
Definition caller_steps (pf : platform) (careful : bool) (s : st) : list (event * res st) :=
  match cp s with
  | Idle => [(CallStart, OK (set_c s S_done)); (CallDestroy, OK (set_c s D_lock))]
  | S_done => opt (c_lock Caller (done s)) (fun c => [(Tau, OK (set_c (set_done s c) S_todo))])
  | S_todo => opt (c_lock Caller (todo s)) (fun c => [(Tau, OK (set_c (set_todo s c) S_set))])
  | S_set => [(Tau, OK (set_c (set_in s true) S_sig))]
  | S_sig => [(Tau, OK (set_c (set_todo s (c_signal pf (todo s))) S_unl))]
  | S_unl => [(Tau, c <- c_unlock Caller (todo s) ;; OK (set_c (set_todo s c) Started))]
  | Started => (CallAwait, OK (set_c s A_wait)) ::
               (if careful then [] else [(CallDestroy, OK (set_c s D_lock))])
  | A_wait => [(Tau, c <- c_sleep pf Caller (done s) ;; OK (set_c (set_done s c) A_sleep))]
  | A_sleep => opt (c_wake pf (done s)) (fun c => [(Tau, OK (set_c (set_done s c) A_woken))])
  | A_woken => opt (c_lock Caller (done s)) (fun c => [(Tau, OK (set_c (set_done s c) A_unl))])
  | A_unl => [(RetAwait, c <- c_unlock Caller (done s) ;; OK (set_c (set_done s c) Idle))]
  | D_lock => opt (c_lock Caller (todo s)) (fun c => [(Tau, OK (set_c (set_todo s c) D_set))])
  | D_set => [(Tau, OK (set_c (set_fin s true) D_sig))]
  | D_sig => [(Tau, OK (set_c (set_todo s (c_signal pf (todo s))) D_unl))]
  | D_unl => [(Tau, c <- c_unlock Caller (todo s) ;; OK (set_c (set_todo s c) D_join))]
  | D_join => match wp s with           (* Thread::wait, Thread.cpp:63-77, 315-329 *)
              | W_end => [(Destroyed, _ <- c_destroy (done s) ;; _ <- c_destroy (todo s) ;;
                                      OK (set_c s Gone))]
              | _ => []
              end
  | Gone => []
  end.

(** Steps of the worker. *)
Definition worker_steps (pf : platform) (s : st) : list (event * res st) :=
  match wp s with
  | W_lock => opt (c_lock Worker (todo s)) (fun c => [(Tau, OK (set_w (set_todo s c) W_test))])
  | W_test => [(Tau, OK (set_w s (if negb (inTask s) && negb (finishing s) then W_wait else W_fin)))]
  | W_wait => [(Tau, c <- c_sleep pf Worker (todo s) ;; OK (set_w (set_todo s c) W_sleep))]
  | W_sleep => opt (c_wake pf (todo s)) (fun c => [(Tau, OK (set_w (set_todo s c) W_woken))])
  | W_woken => opt (c_lock Worker (todo s)) (fun c => [(Tau, OK (set_w (set_todo s c) W_test))])
  | W_fin => [(Tau, OK (set_w s (if finishing s then F_lock else P_call)))]
  | F_lock => opt (c_lock Worker (done s)) (fun c => [(Tau, OK (set_w (set_done s c) F_clear))])
  | F_clear => [(Tau, OK (set_w (set_in s false) F_sig))]
  | F_sig => [(Tau, OK (set_w (set_done s (c_signal pf (done s))) F_unl))]
  | F_unl => [(Tau, c <- c_unlock Worker (done s) ;; OK (set_w (set_done s c) W_out))]
  | P_call => [(PerformBegin, OK (set_w s P_busy))]
  | P_busy => [(PerformEnd, OK (set_w s Q_lock))]
  | Q_lock => opt (c_lock Worker (done s)) (fun c => [(Tau, OK (set_w (set_done s c) Q_clear))])
  | Q_clear => [(Tau, OK (set_w (set_in s false) Q_sig))]
  | Q_sig => [(Tau, OK (set_w (set_done s (c_signal pf (done s))) Q_unl))]
  | Q_unl => [(Tau, c <- c_unlock Worker (done s) ;; OK (set_w (set_done s c) W_test))]
  | W_out => [(Tau, c <- c_unlock Worker (todo s) ;; OK (set_w (set_todo s c) W_end))]
  | W_end => []
  end.

Definition steps (pf : platform) (careful : bool) (s : st) : list (event * res st) :=
  caller_steps pf careful s ++ worker_steps pf s.

(** Which shared flag (m_inTask, m_finishing) a thread reads or writes in its next step. *)
Definition caller_touches (s : st) : bool :=
  match cp s with S_set | D_set => true | _ => false end.
Definition worker_touches (s : st) : bool :=
  match wp s with W_test | W_fin | F_clear | Q_clear => true | _ => false end.
