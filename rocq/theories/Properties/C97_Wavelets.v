(** C97-C100: wavelet decomposition filters (Wavelet::createDecompositionFilters, getWaveletName). *)
From Coq Require Import List ZArith Reals Bool Lia Lra String.
From Verif.Base Require Import Imp RealOps.
From Verif.Wavelet Require Import WaveletModel WaveletSpec WaveletTables WaveletResults WaveletCase.
Import ListNotations.
Open Scope R_scope.

(** C97: filters of the length the wavelet has are made, whatever the vectors held before; names differ. *)
Lemma C97_holds w lpd hpd : exists l h, create_filters w lpd hpd = OK (l, h) /\ zlen l = filter_length w /\ zlen h = filter_length w /\
  forall lpd' hpd', create_filters w lpd' hpd' = OK (l, h).
Proof.
  exists (lows w), (highs w). split; [apply made|]. destruct (lengths w) as [A B]. split; [exact A|]. split; [exact B|]. intros. apply made.
Qed.
Theorem C97_filters :
  forall w lpd hpd, exists l h, create_filters w lpd hpd = OK (l, h) /\ zlen l = filter_length w /\ zlen h = filter_length w /\
    forall lpd' hpd', create_filters w lpd' hpd' = OK (l, h).
Proof. exact C97_holds. Qed.
Print Assumptions C97_filters.
Theorem C97_names : forall w w', wavelet_name w = wavelet_name w' -> w = w'.
Proof. exact names_distinct. Qed.
Print Assumptions C97_names.
Theorem C97_named : forall w, wavelet_name w <> "(unknown)"%string.
Proof. exact named. Qed.
Print Assumptions C97_named.
Example C97_case : exists l h, create_filters Coiflet_3 [1; 2; 3] [] = OK (l, h) /\ zlen l = 18%Z /\ zlen h = 18%Z.
Proof. destruct (C97_holds Coiflet_3 [1; 2; 3] []) as (l & h & A & B & C & _). exists l, h. auto. Qed.

(** C98: every signal can be rebuilt from its two half-rate parts. *)
Theorem C98_reconstruction :
  forall w lpd hpd l h, create_filters w lpd hpd = OK (l, h) -> recovers (/ IZR (recovery w)) l h.
Proof. intros w lpd hpd l h H. rewrite made in H. inversion H. exact (reconstructs w). Qed.
Print Assumptions C98_reconstruction.
(** One part alone does not do: what is left of an alternating signal by the low-pass filter is nothing. *)
Example C98_case : exists l h, create_filters Haar [] [] = OK (l, h) /\ recovers (/ 5000000000) l h /\
  forall k, analysed l (fun t => if Z.even t then 1 else -1) k = 0.
Proof.
  exists (lows Haar), (highs Haar). split; [apply made|]. split; [exact (reconstructs Haar)|]. intros k. unfold analysed. change (zlen (lows Haar)) with (0 + 1 + 1)%Z.
  rewrite !rsum_S, rsum_0 by lia. change (zn 0 (lows Haar) (0 + 1)) with (zn 0 (lows Haar) 0).
  replace (Z.even (2 * k - 0)) with true by (rewrite Z.sub_0_r, Z.even_mul; reflexivity).
  replace (Z.even (2 * k - (0 + 1))) with false by (rewrite Z.even_sub, Z.even_mul; reflexivity). ring.
Qed.

(** C99: the orthogonal wavelets keep the energy of every finite signal. *)
Theorem C99_energy :
  forall w lpd hpd l h, orthogonal w = true -> create_filters w lpd hpd = OK (l, h) -> keeps_energy (/ IZR (recovery w)) l h.
Proof. intros w lpd hpd l h O H. rewrite made in H. inversion H. exact (energy w O). Qed.
Print Assumptions C99_energy.
Example C99_case : orthogonal Symlet_8 = true /\ recovery Symlet_8 = 5000000000%Z.
Proof. split; reflexivity. Qed.
(** The biorthogonal ones do not. *)
Theorem C99_biorthogonal_refuted :
  exists w l h, create_filters w [] [] = OK (l, h) /\ ~ keeps_energy (1 / 2) l h.
Proof. exists Biorthogonal_3_1, (lows Biorthogonal_3_1), (highs Biorthogonal_3_1). split; [apply made|exact click_3_1]. Qed.
Print Assumptions C99_biorthogonal_refuted.

(** C100: the low-pass filter passes constant signals times the square root of two, the high-pass filter blocks
    polynomials of a degree less than the order of the wavelet. *)
Theorem C100_gain :
  forall w lpd hpd l h, create_filters w lpd hpd = OK (l, h) -> unit_gain (/ IZR (10 ^ 13)) l.
Proof. intros w lpd hpd l h H. rewrite made in H. inversion H. exact (gain w). Qed.
Print Assumptions C100_gain.
Theorem C100_polynomials :
  forall w lpd hpd l h, create_filters w lpd hpd = OK (l, h) -> blocks_polynomials (/ IZR (blocking w)) (order w) h.
Proof. intros w lpd hpd l h H. rewrite made in H. inversion H. exact (blocks w). Qed.
Print Assumptions C100_polynomials.
(** A ramp through Daubechies 2. *)
Example C100_case : exists l h, create_filters Daubechies_2 [] [] = OK (l, h) /\ order Daubechies_2 = 2%Z /\
  forall k, Rabs (analysed h (fun t => 3 - IZR t) k) <= / 18000000000 * (Rabs (3 - 2 * IZR k) + 4).
Proof. exists (lows Daubechies_2), (highs Daubechies_2). split; [apply made|]. split; [reflexivity|]. exact ramp_blocked. Qed.
