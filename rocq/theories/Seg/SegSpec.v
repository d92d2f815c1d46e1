(** Specification of segmentations and of the features used for them. *)
From Coq Require Import List ZArith Reals Bool.
From Verif.Base Require Import Imp RealOps.
From Verif.Seg Require Import SegModel.
Import ListNotations.
Open Scope Z_scope.

(** The segments follow each other without gaps from a to b, and none is empty. *)
Fixpoint tiles (a b : Z) (l : list segment_t) : Prop :=
  match l with
  | [] => a = b
  | s :: l => s_start s = a /\ s_start s < s_end s /\ tiles (s_end s) b l
  end.
(** Neighbours differ in type. *)
Fixpoint alternates (l : list segment_t) : Prop :=
  match l with
  | s :: (s' :: _) as r => s_type s <> s_type s' /\ alternates r
  | _ => True
  end.
(** Frame i, starting at sample i * hop, lies in a segment of its type. *)
Definition labels (hop : Z) (q : Z -> Z) (a len : Z) (l : list segment_t) : Prop :=
  forall i, a <= i < len -> exists s, In s l /\ s_start s <= i * hop < s_end s /\ s_type s = q i.
Definition is_segmentation (hop : Z) (q : Z -> Z) (a len : Z) (l : list segment_t) : Prop :=
  tiles (a * hop) (len * hop) l /\ alternates l /\ labels hop q a len l /\ Forall (fun s => (hop | s_start s)) l.

(** Occurrences of state j in the 2 hl + 1 frames around frame i. *)
Definition occurrences (q : Z -> Z) (hl i j : Z) : R :=
  rsum (2 * hl + 1) (fun t => if q (i - hl + t) =? j then 1%R else 0%R).
(** The histogram of frame i: that of the nearest frame whose window fits, divided by its sum of squares. *)
Definition histogram (q : Z -> Z) (nx m hl i j : Z) : R :=
  let i' := Z.max hl (Z.min i (nx - hl - 1)) in
  (occurrences q hl i' j / rsum m (fun j => occurrences q hl i' j * occurrences q hl i' j))%R.

(** Octaves of a constant-Q frame added up. *)
Definition folded (bins noct : Z) (x : Z -> R) (b : Z) : R := rsum noct (fun o => Rabs (x (o * bins + b))).

(** Decibels, and the norm of a frame of them. *)
Definition decibels (v : R) : R := (10 * (ln (v + / 2 ^ 52) / ln 10))%R.
Definition norm_of (n : Z) (x : Z -> R) : R := sqrt (rsum n (fun j => x j * x j)%R).

(** The object after a segmentation: the features are gone, the result is there, all settings are kept. *)
Definition segmented (o : segmenter) (g : segmentation_t) : segmenter :=
  Segmenter [] (t_type o) (t_rate o) (t_hop o) (t_bins o) (t_ncoeff o) (t_states o) (t_clusters o) (t_hist o) (t_limit o) g.
