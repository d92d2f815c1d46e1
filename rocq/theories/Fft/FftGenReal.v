(** Over the reals FftGen.v is FftModel.v. *)
From Coq Require Import Reals ZArith List Bool Lia.
From Verif.Base Require Import Imp RealOps.
From Verif.Fft Require Import Cplx FftModel FftBfly FftWork FftGen.
Import ListNotations.
Open Scope Z_scope.

Notation rwork n i tw := (g_work 0%R 0.5%R Rplus Rminus Rmult Ropp n i tw).
Notation rbfly n i tw := (g_bfly 0%R 0.5%R Rplus Rminus Rmult Ropp n i tw).

Lemma bfly_same n i fs tw p F off fstride m :
  rbfly n i tw p F off fstride m = bfly p F off fstride {| nfft := n; inverse := i; factors := fs; twiddles := tw |} m.
Proof. reflexivity. Qed.

Lemma for_up_same {St} (f g : Z -> St -> res St) : (forall i s, f i s = g i s) -> forall lo hi s, for_up lo hi f s = for_up lo hi g s.
Proof.
  intros H lo hi. unfold for_up. generalize (Z.to_nat (hi - lo)) as k. intros k. revert lo.
  induction k as [|k IH]; intros lo s; [reflexivity|]. cbn. rewrite H. destruct (g lo s); cbn; auto.
Qed.

Lemma work_same n i fs tw : forall facs F off f foff fstride istr,
  rwork n i tw facs F off f foff fstride istr =
  kf_work {| nfft := n; inverse := i; factors := fs; twiddles := tw |} facs F off f foff fstride istr.
Proof.
  induction facs as [|x|p m rest IH] using list_ind2; intros; [reflexivity..|].
  cbn [g_work kf_work]. destruct (m =? 1); [reflexivity|].
  match goal with |- bind ?a _ = bind ?b _ => assert (E : a = b) by (apply for_up_same; intros; apply IH); rewrite E end. reflexivity.
Qed.
