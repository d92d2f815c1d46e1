(** Specification vocabulary for Decimator. *)
From Coq Require Import List ZArith QArith Lia.
From Verif.Base Require Import Imp.
From Verif.Rate Require Import Df2tSpec.
Import ListNotations.
Open Scope Z_scope.

Section Spec.
  Context {F : Type} (z : F).

  (** [mem'] is [mem] with the values [vs] stored from offset [dst]. *)
  Definition stored (mem : list F) (dst : Z) (vs : list F) (mem' : list F) : Prop :=
    zlen mem' = zlen mem /\
    forall i, 0 <= i < zlen mem ->
      zn z mem' i = if (dst <=? i) && (i <? dst + zlen vs) then zn z vs (i - dst) else zn z mem i.

  (** The region of [n] places from offset [off] lies in [mem]. *)
  Definition inside (mem : list F) (off n : Z) : Prop := 0 <= off /\ 0 <= n /\ off + n <= zlen mem.

  (** Client calls with separate buffers: each input block has length n, each output buffer
      room for m samples. *)
  Definition blocks (n m : Z) (calls : list (list F * list F)) : Prop :=
    Forall (fun c => zlen (fst c) = n /\ m <= zlen (snd c)) calls.

  (** The concatenated inputs, and the first m samples of each output buffer. *)
  Definition fed (calls : list (list F * list F)) : list F := concat (map fst calls).
  Definition got (m : Z) (outs : list (list F)) : list F := concat (map (firstn (Z.to_nat m)) outs).
  (** Buffers keep their length and what lies beyond the first m samples. *)
  Definition beyond_kept (m : Z) (calls : list (list F * list F)) (outs : list (list F)) : Prop :=
    Forall2 (fun c o => zlen o = zlen (snd c) /\
                        skipn (Z.to_nat m) o = skipn (Z.to_nat m) (snd c)) calls outs.
End Spec.

(** Numerator and denominator tables (from index 0) as leading coefficient and pairs. *)
Definition lead {T} (lit : Q -> T) (b : list Q) : T := lit (hd 0%Q b).
Definition pairs {T} (lit : Q -> T) (b a : list Q) : list (T * T) :=
  combine (map lit (tl b)) (map lit (tl a)).
