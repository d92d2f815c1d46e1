(** The density of the observations under a hidden Markov model with Gaussian observations and one covariance. *)
From Coq Require Import List ZArith Reals.
From Verif.Base Require Import Imp RealOps Matrix.
From Verif.Lapack Require Import LapackSpec.
From Verif.Hmm Require Import HmmSpec HmmTrain.
Open Scope Z_scope.

(** [l] is the density of the observations [x] under [m], summed over all state sequences. *)
Definition data_likelihood (x : list (list R)) (T : Z) (m : model_t) (l : R) : Prop :=
  exists ic, inverse_of (mL m) (ent 0%R (mcov m)) ic /\
    l = likelihood (zn 0%R (mp0 m)) (ent 0%R (ma m))
          (fun t i => exp (log_density (mL m) (ent 0%R x t) (ent 0%R (mmu m) i) ic (det (Z.to_nat (mL m)) (ent 0%R (mcov m)))))
          (mN m) T.
