(** Left-to-right sums over an arbitrary addition (no algebraic laws assumed), so that they
    denote exactly what the C++ accumulation loops compute, rounding included. *)
From Coq Require Import List ZArith Lia.
From Verif.Base Require Import Imp.
Open Scope Z_scope.

Section FSum.
  Context {T : Type} (zero : T) (add : T -> T -> T).

  (** [(((0 + f 0) + f 1) + ...) + f (n-1)] *)
  Fixpoint fsum_n (n : nat) (f : Z -> T) : T :=
    match n with
    | O => zero
    | S k => add (fsum_n k f) (f (Z.of_nat k))
    end.
  Definition fsum (n : Z) (f : Z -> T) : T := fsum_n (Z.to_nat n) f.

  Lemma fsum_0 n f : n <= 0 -> fsum n f = zero.
  Proof. intros H. unfold fsum. now replace (Z.to_nat n) with 0%nat by lia. Qed.

  Lemma fsum_S n f : 0 <= n -> fsum (n + 1) f = add (fsum n f) (f n).
  Proof.
    intros H. unfold fsum. replace (Z.to_nat (n + 1)) with (S (Z.to_nat n)) by lia.
    simpl. now rewrite Z2Nat.id by lia.
  Qed.

  Lemma fsum_ext n f g : (forall i, 0 <= i < n -> f i = g i) -> fsum n f = fsum n g.
  Proof.
    unfold fsum. intros H. destruct (Z.le_gt_cases n 0) as [Hn|Hn].
    - now replace (Z.to_nat n) with 0%nat by lia.
    - assert (Hm : forall m, (m <= Z.to_nat n)%nat -> fsum_n m f = fsum_n m g).
      { induction m as [|m IH]; intros Hm; simpl; [reflexivity|].
        rewrite IH by lia. now rewrite H by lia. }
      now apply Hm.
  Qed.

  (** An accumulation loop computes [fsum]. *)
  Lemma for_up_fsum n (body : Z -> T -> res T) f :
    0 <= n ->
    (forall i acc, 0 <= i < n -> body i acc = OK (add acc (f i))) ->
    for_up 0 n body zero = OK (fsum n f).
  Proof.
    intros Hn Hb.
    destruct (for_up_inv (fun i acc => acc = fsum i f) 0 n body zero) as (s & E & ->); [exact Hn | now rewrite fsum_0 by lia | | exact E].
    - intros i s Hi ->. exists (add (fsum i f) (f i)). rewrite Hb by lia.
      rewrite fsum_S by lia. auto.
  Qed.
End FSum.
