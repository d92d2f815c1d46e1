(** What a user of BlockAllocator relies on. *)
From Coq Require Import List ZArith Lia Bool.
From Verif.Base Require Import Imp.
From Verif.Thread Require Import AllocModel.
Import ListNotations.
Open Scope Z_scope.

(** What a program may do with the allocator: get an element, give one back (possibly null),
    write into one it holds. *)
Inductive op := Get | Put (p : option ptr) | Write (p : ptr) (j v : Z).

(** Legal uses, given the elements held: only elements held are given back; writes stay within
    the [sz] bytes (words [j] with 8*j < sz). *)
Definition legal (sz : Z) (live : list ptr) (o : op) : Prop :=
  match o with
  | Get => True
  | Put None => True
  | Put (Some p) => In p live
  | Write p j _ => In p live /\ 0 <= j /\ 8 * j < sz
  end.

(** Elements held after an operation (the result of Get being [p']). *)
Definition live_after (live : list ptr) (o : op) (p' : option ptr) (live' : list ptr) : Prop :=
  match o with
  | Get => exists p, p' = Some p /\ live' = p :: live
  | Put (Some p) => exists l1 l2, live = l1 ++ p :: l2 /\ live' = l1 ++ l2
  | _ => live' = live
  end.

(** One operation of the code. *)
Definition perform (epb sz : Z) (a : alloc) (o : op) : res (alloc * option ptr) :=
  match o with
  | Get => '(a, p) <- allocate epb sz a ;; OK (a, Some p)
  | Put q => a <- deallocate epb sz a q ;; OK (a, None)
  | Write p j v => a <- client_write a p j v ;; OK (a, None)
  end.

(** Histories: legal operations, never holding more than [limit] elements. *)
Inductive history (epb cap0 sz limit : Z) : alloc -> list ptr -> Prop :=
| history_new : history epb cap0 sz limit (alloc_new cap0) []
| history_step a live o a' p' live' :
    history epb cap0 sz limit a live -> legal sz live o ->
    perform epb sz a o = OK (a', p') -> live_after live o p' live' -> zlen live' <= limit ->
    history epb cap0 sz limit a' live'.

(** The bytes [sz] of element [p] lie inside memory that is owned and not released. *)
Definition inside (h : heap) (sz : Z) (p : ptr) : Prop :=
  exists w, aget h (fst p) = OK (Some w) /\ 0 <= snd p /\ 8 * snd p + sz <= 8 * zlen w.

(** The bytes of two elements do not overlap. *)
Definition disjoint (sz : Z) (p q : ptr) : Prop :=
  fst p <> fst q \/ 8 * snd p + sz <= 8 * snd q \/ 8 * snd q + sz <= 8 * snd p.

(** Every pair at different places in the list of held elements is disjoint. *)
Definition all_disjoint (sz : Z) (live : list ptr) : Prop :=
  ForallOrdPairs (disjoint sz) live.

(** What an element contains (word by word), [UB] for a word never written. *)
Definition contents (a : alloc) (p : ptr) (j : Z) : res Z := load (a_heap a) p j.

(** No memory is held. *)
Definition all_released (h : heap) : Prop := Forall (fun g => g = None) h.

(** An operation leaves alone what the held elements contain, except for the word written. *)
Definition keeps (sz : Z) (a : alloc) (o : op) (a' : alloc) (live live' : list ptr) : Prop :=
  forall q j, In q live -> In q live' -> 0 <= j -> 8 * j < sz ->
    contents a' q j =
      match o with
      | Write p j' v => if (fst q =? fst p) && (snd q =? snd p) && (j =? j') then OK v else contents a q j
      | _ => contents a q j
      end.
