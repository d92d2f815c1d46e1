(** C18: BlockAllocator (thread/BlockAllocator.h). *)
From Coq Require Import List ZArith Lia Bool.
From Verif.Base Require Import Imp.
From Verif.Thread Require Import AllocModel AllocSpec AllocProofs.
Import ListNotations.
Open Scope Z_scope.

(** C18, for histories holding at most 512*1024 elements at a time: the held elements are
    pairwise disjoint and inside owned memory; every further legal operation succeeds and leaves
    the contents of the other elements alone; memory is released once no element is held, and by
    the destructor (nothing is released twice). *)
Theorem C18_alloc_safe_partial :
  forall sz a live, 1 <= sz ->
    history 512 1024 sz (512 * 1024) a live ->
    all_disjoint sz live /\ Forall (inside (a_heap a) sz) live /\
    (live = [] -> all_released (a_heap a)) /\
    (exists h, alloc_destroy a = OK h /\ all_released h) /\
    (forall o, legal sz live o -> (o = Get -> zlen live < 512 * 1024) ->
       exists a' p', perform 512 sz a o = OK (a', p') /\
         (exists live', live_after live o p' live') /\
         forall live', live_after live o p' live' -> keeps sz a o a' live live').
Proof. intros sz a live. exact (alloc_safe 512 1024 sz a live ltac:(lia) ltac:(lia)). Qed.
Print Assumptions C18_alloc_safe_partial.

(** The same for any number of elements per block and of blocks reserved. *)
Theorem C18_alloc_safe_any_size :
  forall epb cap0 sz a live,
    1 <= epb -> 1 <= cap0 -> 1 <= sz ->
    history epb cap0 sz (epb * cap0) a live ->
    all_disjoint sz live /\ Forall (inside (a_heap a) sz) live /\
    (live = [] -> all_released (a_heap a)) /\
    (exists h, alloc_destroy a = OK h /\ all_released h) /\
    (forall o, legal sz live o -> (o = Get -> zlen live < epb * cap0) ->
       exists a' p', perform epb sz a o = OK (a', p') /\
         (exists live', live_after live o p' live') /\
         forall live', live_after live o p' live' -> keeps sz a o a' live live').
Proof. exact alloc_safe. Qed.
Print Assumptions C18_alloc_safe_any_size.

(** Three elements of 20 bytes; the second is given back and its place reused. *)
Example C18_case :
  exists a, history 512 1024 20 (512 * 1024) a [(0, 4); (0, 8); (0, 0)].
Proof.
  eexists. eapply (play_new _ _ _ _ [Get; Get; Get; Write (0, 4) 2 77; Put (Some (0, 4)); Get]); [lia|].
  vm_compute. reflexivity.
Qed.

(** C18 in full is false of the code: holding 512*1024 + 1 elements makes the vector of blocks
    grow, which deletes the memory of every block; an element still held is then outside owned
    memory and giving it back is undefined.  This for every element size. *)
Theorem C18_alloc_safe_refuted :
  forall sz, 1 <= sz ->
  exists a live p, history 512 1024 sz (512 * 1024 + 1) a live /\ In p live /\
    ~ inside (a_heap a) sz p /\ deallocate 512 sz a (Some p) = UB.
Proof. intros sz H. exact (alloc_overflow 512 1024 sz ltac:(lia) ltac:(lia) H). Qed.
Print Assumptions C18_alloc_safe_refuted.

(** With element size 0 the block number is overwritten by the free list: after get, get, put,
    get, giving the element back reads block number -1. *)
Theorem C18_zero_size_refuted :
  exists a live p, history 512 1024 0 3 a live /\ In p live /\ deallocate 512 0 a (Some p) = UB.
Proof.
  exists {| a_heap := [Some (upd (upd (repeat None 512) 0 (Some (-1))) 1 (Some 0))];
            a_blocks := [{| b_mem := Some 0; b_free := -1; b_alloc := 2; b_end := 2 |}];
            a_cap := 1024; a_list := [0] |}, [(0, 0); (0, 1)], (0, 0).
  splits; [|left; reflexivity|vm_compute; reflexivity].
  eapply (play_new _ _ _ _ [Get; Get; Put (Some (0, 0)); Get]); [lia|]. vm_compute. reflexivity.
Qed.
Print Assumptions C18_zero_size_refuted.
