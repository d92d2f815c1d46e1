(** Model of BlockAllocator (thread/BlockAllocator.h). *)
From Coq Require Import List ZArith Lia Bool.
From Verif.Base Require Import Imp.
Import ListNotations.
Open Scope Z_scope.

(** Memory: the regions ever obtained with [new data_t[n]], in order; [None] once [delete[]]d.
    A word ([data_t]) is [None] until it is written (reading it then is undefined). *)
Definition region := option (list (option Z)).
Definition heap := list region.

(** A pointer: region number and offset in words.  The null pointer is [None] of [option ptr]. *)
Definition ptr := (Z * Z)%type.

Definition h_words (h : heap) (r : Z) : res (list (option Z)) :=
  g <- aget h r ;; match g with Some w => OK w | None => UB end.

(** [p[j]] *)
Definition load (h : heap) (p : ptr) (j : Z) : res Z :=
  w <- h_words h (fst p) ;;
  v <- aget w (snd p + j) ;; match v with Some z => OK z | None => UB end.

(** [p[j] = v] *)
Definition store (h : heap) (p : ptr) (j v : Z) : res heap :=
  w <- h_words h (fst p) ;;
  w' <- aset w (snd p + j) (Some v) ;; aset h (fst p) (Some w').

(** [new data_t[n]]: a fresh region of uninitialised words. *)
Definition h_new (h : heap) (n : Z) : heap * Z :=
  (h ++ [Some (repeat None (Z.to_nat n))], zlen h).

(** [delete[]]: undefined on a region already deleted. *)
Definition h_delete (h : heap) (r : Z) : res heap :=
  _ <- h_words h r ;; aset h r None.

(** class Block, BlockAllocator.h:110-173.  [b_free = -1] stands for [data_t(-1)]. *)
Record block := { b_mem : option Z; b_free : Z; b_alloc : Z; b_end : Z }.

(** BlockAllocator.h:113-119. *)
Definition block_new : block := {| b_mem := None; b_free := -1; b_alloc := 0; b_end := 0 |}.

(** The allocator (lines 175-186); [a_cap] is the capacity of the vector of blocks, [a_list] is
    [m_freelist] with its back first. *)
Record alloc := { a_heap : heap; a_blocks : list block; a_cap : Z; a_list : list Z }.

(** [p->deallocate] of ~Block, line 121: [delete[] m_block] (deleting null does nothing). *)
Definition block_destroy (h : heap) (b : block) : res heap :=
  match b_mem b with None => OK h | Some r => h_delete h r end.

Fixpoint destroy_all (h : heap) (bs : list block) : res heap :=
  match bs with [] => OK h | b :: t => h' <- block_destroy h b ;; destroy_all h' t end.

Section Alloc.
  (** [epb]: elementsPerBlock(), 512 (line 94); [cap0]: the reserved capacity, 1024 (line 180);
      [sz]: the element size in bytes given to the constructor (line 62). *)
  Context (epb cap0 sz : Z).

  (** lines 100-108, with sizeof(data_t) = 8. *)
  Definition esz : Z := (sz + (8 - 1)) / 8.
  Definition unit_ : Z := esz + 1.
  Definition blk_size : Z := epb * unit_.

  (** line 62, 179-181. *)
  Definition alloc_new : alloc :=
    {| a_heap := []; a_blocks := []; a_cap := cap0; a_list := [] |}.

  (** line 125. *)
  Definition is_full (b : block) : bool := b_alloc b =? epb.

  (** Block::allocate, lines 135-157. *)
  Definition block_allocate (h : heap) (b : block) (index : Z) : res (heap * block * ptr) :=
    if b_free b =? -1 then
      let '(h, m, e) :=
        match b_mem b with
        | None => let '(h, r) := h_new h blk_size in (h, r, 0)
        | Some r => (h, r, b_end b)
        end in
      let p := (m, e) in
      h <- store h p esz index ;;
      OK (h, {| b_mem := Some m; b_free := b_free b; b_alloc := b_alloc b + 1;
                b_end := e + unit_ |}, p)
    else
      match b_mem b with
      | None => UB
      | Some m =>
        let p := (m, b_free b) in
        f <- load h p 0 ;;
        OK (h, {| b_mem := Some m; b_free := f; b_alloc := b_alloc b + 1; b_end := b_end b |}, p)
      end.

  (** Block::deallocate and clear, lines 129-133 and 159-165.  The subtraction of pointers
      into different regions is undefined. *)
  Definition block_deallocate (h : heap) (b : block) (p : ptr) : res (heap * block) :=
    h <- store h p 0 (b_free b) ;;
    match b_mem b with
    | None => UB
    | Some m =>
      if fst p =? m then
        let n := b_alloc b - 1 in
        if n =? 0 then
          h <- h_delete h m ;;
          OK (h, {| b_mem := None; b_free := -1; b_alloc := 0; b_end := b_end b |})
        else OK (h, {| b_mem := Some m; b_free := snd p; b_alloc := n; b_end := b_end b |})
      else UB
    end.

  (** [m_blocks.data.push_back(Block(this))], line 69.  When the vector is at its capacity the
      blocks are copied to new storage (Block has a destructor, so no move constructor: the
      member-wise copy shares m_block) and the old ones are destroyed, which deletes the
      shared memory. *)
  Definition push_block (a : alloc) : res alloc :=
    if zlen (a_blocks a) <? a_cap a then
      OK {| a_heap := a_heap a; a_blocks := a_blocks a ++ [block_new];
            a_cap := a_cap a; a_list := a_list a |}
    else
      h <- destroy_all (a_heap a) (a_blocks a) ;;
      OK {| a_heap := h; a_blocks := a_blocks a ++ [block_new];
            a_cap := 2 * a_cap a; a_list := a_list a |}.

  (** allocate(), lines 64-78. *)
  Definition allocate (a : alloc) : res (alloc * ptr) :=
    a <- match a_list a with
         | [] => push_block {| a_heap := a_heap a; a_blocks := a_blocks a; a_cap := a_cap a;
                               a_list := [zlen (a_blocks a)] |}
         | _ :: _ => OK a
         end ;;
    match a_list a with
    | [] => UB
    | index :: rest =>
      b <- aget (a_blocks a) index ;;
      '(h, b, p) <- block_allocate (a_heap a) b index ;;
      bs <- aset (a_blocks a) index b ;;
      OK ({| a_heap := h; a_blocks := bs; a_cap := a_cap a;
             a_list := if is_full b then rest else a_list a |}, p)
    end.

  (** deallocate(), lines 80-91. *)
  Definition deallocate (a : alloc) (q : option ptr) : res alloc :=
    match q with
    | None => OK a
    | Some p =>
      index <- load (a_heap a) p esz ;;
      b <- aget (a_blocks a) index ;;
      let l := if is_full b then index :: a_list a else a_list a in
      '(h, b) <- block_deallocate (a_heap a) b p ;;
      bs <- aset (a_blocks a) index b ;;
      OK {| a_heap := h; a_blocks := bs; a_cap := a_cap a; a_list := l |}
    end.

  (** The destructor: ~vector destroys every block. *)
  Definition alloc_destroy (a : alloc) : res heap := destroy_all (a_heap a) (a_blocks a).

  (** The client writes word [j] of an element. *)
  Definition client_write (a : alloc) (p : ptr) (j v : Z) : res alloc :=
    h <- store (a_heap a) p j v ;;
    OK {| a_heap := h; a_blocks := a_blocks a; a_cap := a_cap a; a_list := a_list a |}.
End Alloc.
