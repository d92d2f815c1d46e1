(** Proofs about AsynchronousTask: the reachable states are enumerated together with the phase
    of the round the trace is in; the enumeration is checked to be closed under steps. *)
From Coq Require Import List ZArith Bool Lia.
From Verif.Base Require Import Imp.
From Verif.Thread Require Import TaskModel TaskSpec.
Import ListNotations.
Local Open Scope nat_scope.

Scheme Equality for cpc.
Scheme Equality for wpc.

Definition owner_eqb (a b : option tid) : bool :=
  match a, b with
  | None, None => true
  | Some x, Some y => tid_eqb x y
  | _, _ => false
  end.

Lemma owner_eqb_eq a b : owner_eqb a b = true -> a = b.
Proof. destruct a as [[]|], b as [[]|]; cbn; intros; congruence. Qed.

Definition cond_eqb (a b : cond) : bool :=
  owner_eqb (owner a) (owner b) && Bool.eqb (locked a) (locked b) &&
  Bool.eqb (asleep a) (asleep b) && Bool.eqb (event_set a) (event_set b).

Lemma cond_eqb_eq a b : cond_eqb a b = true -> a = b.
Proof.
  unfold cond_eqb. rewrite !andb_true_iff. intros [[[H1 H2] H3] H4].
  apply owner_eqb_eq in H1. apply eqb_prop in H2, H3, H4. destruct a, b; cbn in *; congruence.
Qed.

(** Phases: 0 between rounds, 1 started, 2 performing, 3 performed, 4 being destroyed, 5 gone. *)
Definition node := (st * nat)%type.

Definition node_eqb (a b : node) : bool :=
  cpc_beq (cp (fst a)) (cp (fst b)) && wpc_beq (wp (fst a)) (wp (fst b)) &&
  Nat.eqb (snd a) (snd b) &&
  Bool.eqb (inTask (fst a)) (inTask (fst b)) && Bool.eqb (finishing (fst a)) (finishing (fst b)) &&
  cond_eqb (todo (fst a)) (todo (fst b)) && cond_eqb (done (fst a)) (done (fst b)).

Lemma node_eqb_eq a b : node_eqb a b = true -> a = b.
Proof.
  unfold node_eqb. rewrite !andb_true_iff. intros [[[[[[H1 H2] H3] H4] H5] H6] H7].
  apply internal_cpc_dec_bl in H1. apply internal_wpc_dec_bl in H2. apply Nat.eqb_eq in H3.
  apply eqb_prop in H4, H5. apply cond_eqb_eq in H6, H7.
  destruct a as [[] ?], b as [[] ?]; cbn in *; congruence.
Qed.

Definition mem (x : node) (l : list node) : bool := existsb (node_eqb x) l.

Lemma mem_In x l : mem x l = true -> In x l.
Proof.
  unfold mem. rewrite existsb_exists. intros (y & Hy & He). apply node_eqb_eq in He. congruence.
Qed.

Definition next_phase (ph : nat) (e : event) : option nat :=
  match e, ph with
  | Tau, _ => Some ph
  | CallAwait, _ => Some ph
  | CallStart, 0 => Some 1
  | PerformBegin, 1 => Some 2
  | PerformEnd, 2 => Some 3
  | RetAwait, 3 => Some 0
  | CallDestroy, 0 => Some 4
  | Destroyed, 4 => Some 5
  | _, _ => None
  end.

Definition phase_part (ph : nat) : list event :=
  match ph with
  | 0 => [] | 1 => [CallStart] | 2 => [CallStart; PerformBegin]
  | 3 => [CallStart; PerformBegin; PerformEnd] | 4 => [CallDestroy] | _ => [CallDestroy; Destroyed]
  end.

Definition phase_ok (ph : nat) (tr : list event) : Prop :=
  ph <= 5 /\ exists n, filter not_await tr = concat (repeat round n) ++ phase_part ph.

Lemma concat_rounds n : concat (repeat round (S n)) = concat (repeat round n) ++ round.
Proof.
  replace (S n) with (n + 1) by lia. rewrite repeat_app, concat_app. reflexivity.
Qed.

Lemma phase_step ph tr e ph' :
  phase_ok ph tr -> next_phase ph e = Some ph' -> phase_ok ph' (tr ++ visible e).
Proof.
  intros [Hle (n & Hn)] Hnext. unfold phase_ok.
  rewrite filter_app, Hn, <- app_assoc.
  destruct e; cbn [visible filter not_await]; cbn [next_phase] in Hnext.
  - injection Hnext as <-. split; [exact Hle|]. exists n. rewrite app_nil_r. reflexivity.
  - destruct ph; [|discriminate]. injection Hnext as <-. split; [lia|]. exists n. reflexivity.
  - injection Hnext as <-. split; [exact Hle|]. exists n. rewrite app_nil_r. reflexivity.
  - destruct ph; [|discriminate]. injection Hnext as <-. split; [lia|]. exists n. reflexivity.
  - destruct ph as [|[|[|[|ph]]]]; try discriminate. injection Hnext as <-. split; [lia|].
    exists (S n). rewrite concat_rounds. cbn [phase_part]. rewrite app_nil_r. reflexivity.
  - destruct ph as [|[|ph]]; try discriminate. injection Hnext as <-. split; [lia|]. exists n. reflexivity.
  - destruct ph as [|[|[|ph]]]; try discriminate. injection Hnext as <-. split; [lia|]. exists n. reflexivity.
  - destruct ph as [|[|[|[|[|ph]]]]]; try discriminate. injection Hnext as <-. split; [lia|].
    exists n. reflexivity.
Qed.

Lemma phase_in_order ph tr : phase_ok ph tr -> in_order tr.
Proof.
  intros [Hle (n & Hn)]. unfold in_order, lifetime. rewrite Hn.
  destruct ph as [|[|[|[|[|[|ph]]]]]]; [| | | | | |lia]; cbn [phase_part].
  - exists n, [CallDestroy; Destroyed]. rewrite app_nil_r. reflexivity.
  - exists (S n), ([PerformBegin; PerformEnd; RetAwait] ++ [CallDestroy; Destroyed]).
    rewrite concat_rounds, <- !app_assoc. reflexivity.
  - exists (S n), ([PerformEnd; RetAwait] ++ [CallDestroy; Destroyed]).
    rewrite concat_rounds, <- !app_assoc. reflexivity.
  - exists (S n), ([RetAwait] ++ [CallDestroy; Destroyed]).
    rewrite concat_rounds, <- !app_assoc. reflexivity.
  - exists n, [Destroyed]. rewrite <- app_assoc. reflexivity.
  - exists n, []. rewrite app_nil_r. reflexivity.
Qed.

(** *** Enumeration *)
Fixpoint explore (pf : platform) (fuel : nat) (todo_ : list node) (seen : list node) : list node :=
  match fuel with
  | O => seen
  | S k =>
    match todo_ with
    | [] => seen
    | (s, ph) :: rest =>
      if mem (s, ph) seen then explore pf k rest seen
      else
        let succ := flat_map (fun er => match snd er, next_phase ph (fst er) with
                                        | OK s', Some ph' => [(s', ph')]
                                        | _, _ => []
                                        end) (steps pf true s) in
        explore pf k (succ ++ rest) ((s, ph) :: seen)
    end
  end.

(** *** A bound on the steps left *)
Definition wtest (i f : bool) : nat := if f then 7 else if i then 10 else 2.
Definition wrank (s : st) : nat :=
  let t := wtest (inTask s) (finishing s) in
  let t0 := wtest false (finishing s) in
  (if event_set (todo s) then 5 else 0) +
  match wp s with
  | W_lock | W_woken => t + 1
  | W_test => t
  | W_wait => 1
  | W_sleep => if asleep (todo s) then 0
               else if (inTask s || finishing s) then t + 2 else 0
  | W_fin => if finishing s then 6 else 9
  | F_lock => 5 | F_clear => 4 | F_sig => 3 | F_unl => 2 | W_out => 1 | W_end => 0
  | P_call => t0 + 6 | P_busy => t0 + 5 | Q_lock => t0 + 4 | Q_clear => t0 + 3
  | Q_sig => t + 2 | Q_unl => t + 1
  end.
Definition crank (s : st) : nat :=
  match cp s with
  | Idle | Started | Gone => 0
  | S_unl => 1 | S_sig => 25 | S_set => 50 | S_todo => 51 | S_done => 52
  | A_unl => 1 | A_woken => 2 | A_sleep => 3 | A_wait => 4
  | D_join => 1 | D_unl => 2 | D_sig => 25 | D_set => 50 | D_lock => 51
  end.
Definition rank (s : st) : nat := crank s + wrank s.

Definition calling_b (s : st) : bool := match cp s with Idle | Started | Gone => false | _ => true end.

(** Everything that is to be true of a node, given the list of all of them. *)
Definition node_ok (pf : platform) (l : list node) (x : node) : bool :=
  let '(s, ph) := x in
  forallb (fun er =>
    match snd er, next_phase ph (fst er) with
    | OK s', Some ph' => mem (s', ph') l && (is_call (fst er) || (rank s' <? rank s))
    | _, _ => false
    end) (steps pf true s) &&
  (rank s <=? 70) &&
  (if calling_b s then match steps pf true s with [] => false | _ => true end else true) &&
  (if caller_touches s then owner_eqb (owner (todo s)) (Some Caller) else true) &&
  (if worker_touches s then owner_eqb (owner (todo s)) (Some Worker) else true).

Definition reach (pf : platform) : list node := explore pf 2000 [(st_new, 0)] [].


Section Closed.
  Context (pf : platform).
  Hypothesis Hnew : mem (st_new, 0) (reach pf) = true.
  Hypothesis Hok : forallb (node_ok pf (reach pf)) (reach pf) = true.

  Lemma node_okP s ph : In (s, ph) (reach pf) -> node_ok pf (reach pf) (s, ph) = true.
  Proof. rewrite forallb_forall in Hok. apply Hok. Qed.

  Lemma node_step s ph e r : In (s, ph) (reach pf) -> In (e, r) (steps pf true s) ->
    exists s' ph', r = OK s' /\ next_phase ph e = Some ph' /\ In (s', ph') (reach pf) /\
      (is_call e = false -> rank s' < rank s).
  Proof.
    intros Hin Hst. pose proof (node_okP _ _ Hin) as H. unfold node_ok in H.
    rewrite !andb_true_iff in H. destruct H as [[[[H _] _] _] _].
    rewrite forallb_forall in H. specialize (H _ Hst). cbn [fst snd] in H.
    destruct r as [s'| | |]; try discriminate. destruct (next_phase ph e) as [ph'|]; [|discriminate].
    apply andb_true_iff in H. destruct H as [Hm Hr]. exists s', ph'. splits; auto.
    - apply mem_In. exact Hm.
    - intros Hc. rewrite Hc in Hr. cbn in Hr. apply Nat.ltb_lt. exact Hr.
  Qed.

  Lemma exec_node tr s : exec pf true tr s -> exists ph, In (s, ph) (reach pf) /\ phase_ok ph tr.
  Proof.
    induction 1 as [|tr s e s' H IH Hst].
    - exists 0. split; [apply mem_In; exact Hnew|]. split; [lia|]. exists 0. reflexivity.
    - destruct IH as (ph & Hin & Hph). destruct (node_step _ _ _ _ Hin Hst) as (s2 & ph' & Hs & Hn & Hin' & _).
      injection Hs as <-. exists ph'. split; [exact Hin'|]. eapply phase_step; eauto.
  Qed.

  Lemma closed_in_order tr s : exec pf true tr s -> in_order tr.
  Proof. intros H. destruct (exec_node tr s H) as (ph & _ & Hp). eapply phase_in_order; eauto. Qed.

  Lemma closed_safe tr s e r : exec pf true tr s -> In (e, r) (steps pf true s) -> exists s', r = OK s'.
  Proof.
    intros H Hst. destruct (exec_node tr s H) as (ph & Hin & _).
    destruct (node_step _ _ _ _ Hin Hst) as (s' & _ & -> & _). eauto.
  Qed.

  Lemma closed_live tr s : exec pf true tr s -> ~ deadlock pf true s.
  Proof.
    intros H [Hc Hs]. destruct (exec_node tr s H) as (ph & Hin & _).
    pose proof (node_okP _ _ Hin) as Hn. unfold node_ok in Hn. rewrite !andb_true_iff in Hn.
    destruct Hn as [[[[_ _] Hn] _] _]. rewrite Hs in Hn. unfold calling_b in Hn. unfold calling in Hc.
    destruct (cp s); try discriminate; destruct Hc as (H1 & H2 & H3); congruence.
  Qed.

  Lemma closed_bound tr s n s' : exec pf true tr s -> runs pf true n s s' -> n <= 70.
  Proof.
    intros H Hr. destruct (exec_node tr s H) as (ph & Hin & _). clear H tr.
    assert (Hb : n + rank s' <= rank s).
    { revert ph Hin. induction Hr as [s|n s s1 s2 (e & He & Hst) Hr IH]; intros ph Hin; [lia|].
      destruct (node_step _ _ _ _ Hin Hst) as (s1' & ph' & Hs & _ & Hin' & Hlt). injection Hs as <-.
      specialize (IH _ Hin'). specialize (Hlt He). lia. }
    pose proof (node_okP _ _ Hin) as Hn. unfold node_ok in Hn. rewrite !andb_true_iff in Hn.
    destruct Hn as [[[[_ Hn] _] _] _]. apply Nat.leb_le in Hn. lia.
  Qed.

  Lemma closed_races tr s : exec pf true tr s ->
    (caller_touches s = true -> owner (todo s) = Some Caller) /\
    (worker_touches s = true -> owner (todo s) = Some Worker).
  Proof.
    intros H. destruct (exec_node tr s H) as (ph & Hin & _).
    pose proof (node_okP _ _ Hin) as Hn. unfold node_ok in Hn. rewrite !andb_true_iff in Hn.
    destruct Hn as [[[[_ _] _] H1] H2]. split; intros Ht.
    - rewrite Ht in H1. apply owner_eqb_eq. exact H1.
    - rewrite Ht in H2. apply owner_eqb_eq. exact H2.
  Qed.
End Closed.

Definition no_spurious (pf : platform) : Prop := pf <> Pthread true.

Lemma reach_new pf : no_spurious pf -> mem (st_new, 0) (reach pf) = true.
Proof. intros H. destruct pf as [[]|]; [congruence| |]; vm_compute; reflexivity. Qed.

Lemma reach_ok pf : no_spurious pf -> forallb (node_ok pf (reach pf)) (reach pf) = true.
Proof. intros H. destruct pf as [[]|]; [congruence| |]; vm_compute; reflexivity. Qed.

Theorem task_in_order pf tr s : no_spurious pf -> exec pf true tr s -> in_order tr.
Proof. intros H. apply closed_in_order; [apply reach_new|apply reach_ok]; exact H. Qed.

Theorem task_safe pf tr s e r :
  no_spurious pf -> exec pf true tr s -> In (e, r) (steps pf true s) -> exists s', r = OK s'.
Proof. intros H. apply closed_safe; [apply reach_new|apply reach_ok]; exact H. Qed.

Theorem task_live pf tr s : no_spurious pf -> exec pf true tr s -> ~ deadlock pf true s.
Proof. intros H. apply closed_live; [apply reach_new|apply reach_ok]; exact H. Qed.

Theorem task_bound pf tr s n s' : no_spurious pf -> exec pf true tr s -> runs pf true n s s' -> n <= 70.
Proof. intros H. apply closed_bound; [apply reach_new|apply reach_ok]; exact H. Qed.

Theorem task_races pf tr s : no_spurious pf -> exec pf true tr s ->
  (caller_touches s = true -> owner (todo s) = Some Caller) /\
  (worker_touches s = true -> owner (todo s) = Some Worker).
Proof. intros H. apply closed_races; [apply reach_new|apply reach_ok]; exact H. Qed.

Lemma calling_internal pf careful s e s' :
  calling s -> In (e, OK s') (steps pf careful s) -> is_call e = false.
Proof.
  intros (H1 & H2 & H3) Hin. unfold steps in Hin. apply in_app_or in Hin. destruct Hin as [Hin|Hin].
  - unfold caller_steps in Hin. destruct (cp s); try congruence; unfold opt in Hin;
      repeat match type of Hin with
             | In _ (match ?x with _ => _ end) => destruct x
             end; cbn [In] in Hin;
      repeat (destruct Hin as [Hin|Hin]; [apply (f_equal fst) in Hin; cbn [fst] in Hin; subst e; reflexivity|]);
      contradiction.
  - unfold worker_steps in Hin. destruct (wp s); unfold opt in Hin;
      repeat match type of Hin with
             | In _ (match ?x with _ => _ end) => destruct x
             end; cbn [In] in Hin;
      repeat (destruct Hin as [Hin|Hin]; [apply (f_equal fst) in Hin; cbn [fst] in Hin; subst e; reflexivity|]);
      contradiction.
Qed.

Lemma exec_runs pf n s s' : runs pf true n s s' ->
  forall tr, exec pf true tr s -> exists tr', exec pf true (tr ++ tr') s'.
Proof.
  induction 1 as [s|n s s1 s2 (e & He & Hst) Hr IH]; intros tr Htr.
  - exists []. rewrite app_nil_r. exact Htr.
  - destruct (IH (tr ++ visible e)) as (tr' & Htr'). { eapply exec_step; eauto. }
    exists (visible e ++ tr'). rewrite app_assoc. exact Htr'.
Qed.

(** However the threads are scheduled, a call in progress returns: after at most 70 steps a
    state is reached in which no call is in progress. *)
Theorem task_returns pf tr s : no_spurious pf -> exec pf true tr s ->
  forall n s', runs pf true n s s' ->
    n <= 70 /\ ((forall s'', ~ internal pf true s' s'') -> ~ calling s').
Proof.
  intros Hns Hex n s' Hr. split; [eapply task_bound; eauto|]. intros Hno Hc.
  destruct (exec_runs _ _ _ _ Hr _ Hex) as (tr' & Hex').
  apply (task_live _ _ _ Hns Hex'). split; [exact Hc|].
  destruct (steps pf true s') as [|[e r] t] eqn:Es; [reflexivity|]. exfalso.
  assert (Hin : In (e, r) (steps pf true s')) by (rewrite Es; left; reflexivity).
  destruct (task_safe _ _ _ _ _ Hns Hex' Hin) as (s2 & ->).
  apply (Hno s2). exists e. split; [eapply calling_internal; eauto|exact Hin].
Qed.

(** *** Running a given schedule (for witnesses) *)
Fixpoint schedule (pf : platform) (careful : bool) (l : list nat) (tr : list event) (s : st) :
  option (list event * st) :=
  match l with
  | [] => Some (tr, s)
  | k :: t =>
    match nth_error (steps pf careful s) k with
    | Some (e, OK s') => schedule pf careful t (tr ++ visible e) s'
    | _ => None
    end
  end.

Lemma schedule_exec pf careful l : forall tr s tr' s',
  exec pf careful tr s -> schedule pf careful l tr s = Some (tr', s') -> exec pf careful tr' s'.
Proof.
  induction l as [|k l IH]; intros tr s tr' s' H; cbn [schedule].
  { intros [= <- <-]. exact H. }
  destruct (nth_error (steps pf careful s) k) as [[e [s1| | |]]|] eqn:Ek; try discriminate.
  apply IH. eapply exec_step; eauto. eapply nth_error_In; eauto.
Qed.

Lemma schedule_new pf careful l tr s :
  schedule pf careful l [] st_new = Some (tr, s) -> exec pf careful tr s.
Proof. apply schedule_exec. constructor. Qed.

(** *** All platforms, any caller: the lock protects the flags *)
Fixpoint explore_all (pf : platform) (careful : bool) (fuel : nat) (todo_ seen : list node) : list node :=
  match fuel with
  | O => seen
  | S k =>
    match todo_ with
    | [] => seen
    | (s, ph) :: rest =>
      if mem (s, ph) seen then explore_all pf careful k rest seen
      else
        explore_all pf careful k
          (flat_map (fun er => match snd er with OK s' => [(s', 0)] | _ => [] end) (steps pf careful s) ++ rest)
          ((s, ph) :: seen)
    end
  end.

Definition reach_all (pf : platform) (careful : bool) : list node :=
  explore_all pf careful 5000 [(st_new, 0)] [].

Definition flags_ok (s : st) : bool :=
  (if caller_touches s then owner_eqb (owner (todo s)) (Some Caller) else true) &&
  (if worker_touches s then owner_eqb (owner (todo s)) (Some Worker) else true).

Definition closed_all (pf : platform) (careful : bool) (l : list node) : bool :=
  forallb (fun x => flags_ok (fst x) &&
    forallb (fun er => match snd er with OK s' => mem (s', 0) l | _ => true end)
            (steps pf careful (fst x))) l.

Lemma reach_all_new pf careful : mem (st_new, 0) (reach_all pf careful) = true.
Proof. destruct pf as [[]|], careful; vm_compute; reflexivity. Qed.

Lemma reach_all_closed pf careful : closed_all pf careful (reach_all pf careful) = true.
Proof. destruct pf as [[]|], careful; vm_compute; reflexivity. Qed.

Lemma closed_all_flags pf careful l tr s :
  mem (st_new, 0) l = true -> closed_all pf careful l = true -> exec pf careful tr s ->
  (caller_touches s = true -> owner (todo s) = Some Caller) /\
  (worker_touches s = true -> owner (todo s) = Some Worker).
Proof.
  intros Hnew Hc H. unfold closed_all in Hc. rewrite forallb_forall in Hc.
  assert (Hin : In (s, 0) l).
  { induction H as [|tr s e s' H IH Hst]; [apply mem_In; exact Hnew|].
    specialize (Hc _ IH). apply andb_true_iff in Hc. destruct Hc as [_ Hc].
    rewrite forallb_forall in Hc. specialize (Hc _ Hst). cbn [snd] in Hc. apply mem_In. exact Hc. }
  specialize (Hc _ Hin). apply andb_true_iff in Hc. destruct Hc as [Hc _].
  unfold flags_ok in Hc. apply andb_true_iff in Hc. cbn [fst] in Hc. destruct Hc as [H1 H2]. split; intros Ht.
  - rewrite Ht in H1. apply owner_eqb_eq. exact H1.
  - rewrite Ht in H2. apply owner_eqb_eq. exact H2.
Qed.

Theorem task_flags pf careful tr s : exec pf careful tr s ->
  (caller_touches s = true -> owner (todo s) = Some Caller) /\
  (worker_touches s = true -> owner (todo s) = Some Worker).
Proof.
  exact (closed_all_flags pf careful _ tr s (reach_all_new pf careful) (reach_all_closed pf careful)).
Qed.
