(** The comparisons of IEEE-754 floating-point data (Coq.Floats.SpecFloat) satisfy the
    order hypotheses used for MedianFilter. *)
From Coq Require Import List ZArith Lia Bool.
From Coq.Floats Require Import SpecFloat.
From Verif.Base Require Import Imp.
From Verif.Maths Require Import MedianSpec.
Open Scope Z_scope.

(** C++ [x != y] and [x < y] on double. *)
Definition ieee_neq (x y : spec_float) : bool := negb (SFeqb x y).
Definition ieee_zero : spec_float := S754_zero false.

Definition key (x : spec_float) : Z * Z * Z :=
  match x with
  | S754_zero _ => (0, 0, 0)
  | S754_infinity s => ((if s then -2 else 2), 0, 0)
  | S754_nan => (0, 0, 0)
  | S754_finite true m e => (-1, - e, - Z.pos m)
  | S754_finite false m e => (1, e, Z.pos m)
  end.
Definition lexlt (a b : Z * Z * Z) : bool :=
  let '(a1, a2, a3) := a in let '(b1, b2, b3) := b in
  (a1 <? b1) || ((a1 =? b1) && ((a2 <? b2) || ((a2 =? b2) && (a3 <? b3)))).

Lemma not_nan x : ieee_neq x x = false <-> x <> S754_nan.
Proof.
  unfold ieee_neq, SFeqb. destruct x as [s|s| |s m e]; cbn; try (destruct s; cbn); try (split; congruence).
  - rewrite Z.compare_refl, Pos.compare_cont_refl. cbn. split; congruence.
  - rewrite Z.compare_refl, Pos.compare_cont_refl. cbn. split; congruence.
Qed.

Lemma compare_key x y : x <> S754_nan -> y <> S754_nan ->
  SFltb x y = lexlt (key x) (key y) /\ SFeqb x y = negb (lexlt (key x) (key y) || lexlt (key y) (key x)).
Proof.
  unfold SFltb, SFeqb, lexlt.
  destruct x as [s|s| |s m e], y as [t|t| |t n f]; intros Hx Hy; try congruence;
    try (destruct s); try (destruct t); cbn; auto.
  all: change (Pos.compare_cont Eq m n) with (m ?= n)%positive.
  all: rewrite ?Z.compare_antisym with (n := e) (m := f).
  all: destruct (Z.compare_spec e f), (Pos.compare_spec m n); subst; cbn;
    repeat match goal with |- context [?a <? ?b] => destruct (Z.ltb_spec a b) end;
    repeat match goal with |- context [?a =? ?b] => destruct (Z.eqb_spec a b) end;
    cbn; auto; lia.
Qed.

Theorem ieee_ordered : ordered ieee_zero SFltb ieee_neq.
Proof.
  assert (L : forall a b c, lexlt a c = true -> lexlt a b = true \/ lexlt b c = true).
  { unfold lexlt. intros [[a1 a2] a3] [[b1 b2] b3] [[c1 c2] c3]. rewrite !orb_true_iff, !andb_true_iff,
      !orb_true_iff, !andb_true_iff, !Z.ltb_lt, !Z.eqb_eq. lia. }
  assert (A : forall a b, lexlt a b = true -> lexlt b a = false).
  { unfold lexlt. intros [[a1 a2] a3] [[b1 b2] b3]. intros H. apply not_true_iff_false. revert H.
    rewrite !orb_true_iff, !andb_true_iff, !orb_true_iff, !andb_true_iff, !Z.ltb_lt, !Z.eqb_eq. lia. }
  constructor.
  - reflexivity.
  - intros x Hx. apply not_nan in Hx. destruct (compare_key x x Hx Hx) as [-> _].
    destruct (lexlt (key x) (key x)) eqn:E; auto. rewrite A in E; auto.
  - intros x y Hx Hy. apply not_nan in Hx, Hy. destruct (compare_key x y Hx Hy) as [-> _].
    destruct (compare_key y x Hy Hx) as [-> _]. apply A.
  - intros x y z Hx Hy Hz. apply not_nan in Hx, Hy, Hz. destruct (compare_key x y Hx Hy) as [-> _].
    destruct (compare_key y z Hy Hz) as [-> _]. destruct (compare_key x z Hx Hz) as [-> _]. apply L.
  - intros x y Hx Hy. apply not_nan in Hx, Hy. unfold ieee_neq.
    destruct (compare_key x y Hx Hy) as [-> ->]. destruct (compare_key y x Hy Hx) as [-> _].
    apply negb_involutive.
Qed.
