(** What each of the wavelets offered promises. *)
From Coq Require Import List ZArith Reals Bool.
From Verif.Wavelet Require Import WaveletModel.
Import ListNotations.
Open Scope Z_scope.

(** Filter lengths: 2N for Daubechies and symlets of order N, 6N for coiflets. *)
Definition filter_length (w : wavelet) : Z :=
  match w with
  | Haar => 2
  | Daubechies_2 | Symlet_2 => 4 | Daubechies_3 | Symlet_3 => 6 | Daubechies_4 | Symlet_4 => 8 | Daubechies_5 | Symlet_5 => 10
  | Daubechies_6 | Symlet_6 => 12 | Daubechies_7 | Symlet_7 => 14 | Daubechies_8 | Symlet_8 => 16 | Daubechies_9 | Symlet_9 => 18
  | Daubechies_10 | Symlet_10 => 20 | Daubechies_20 | Symlet_20 => 40 | Symlet_30 => 60 | Daubechies_40 => 80
  | Coiflet_1 => 6 | Coiflet_2 => 12 | Coiflet_3 => 18 | Coiflet_4 => 24 | Coiflet_5 => 30
  | Biorthogonal_1_3 => 6 | Biorthogonal_1_5 => 10
  | Biorthogonal_2_2 => 6 | Biorthogonal_2_4 => 10 | Biorthogonal_2_6 => 14 | Biorthogonal_2_8 => 18
  | Biorthogonal_3_1 => 4 | Biorthogonal_3_3 => 8 | Biorthogonal_3_5 => 12 | Biorthogonal_3_7 => 16 | Biorthogonal_3_9 => 20
  | Biorthogonal_4_4 => 10 | Biorthogonal_5_5 => 12 | Biorthogonal_6_8 => 18
  | Meyer => 102
  end.

(** Vanishing moments: N for Daubechies and symlets, 2N for coiflets, the first index of the biorthogonal ones.
    The Meyer wavelet has all of them; its filter, cut to 102 samples, is held to twelve. *)
Definition order (w : wavelet) : Z :=
  match w with
  | Haar => 1
  | Daubechies_2 | Symlet_2 => 2 | Daubechies_3 | Symlet_3 => 3 | Daubechies_4 | Symlet_4 => 4 | Daubechies_5 | Symlet_5 => 5
  | Daubechies_6 | Symlet_6 => 6 | Daubechies_7 | Symlet_7 => 7 | Daubechies_8 | Symlet_8 => 8 | Daubechies_9 | Symlet_9 => 9
  | Daubechies_10 | Symlet_10 => 10 | Daubechies_20 | Symlet_20 => 20 | Symlet_30 => 30 | Daubechies_40 => 40
  | Coiflet_1 => 2 | Coiflet_2 => 4 | Coiflet_3 => 6 | Coiflet_4 => 8 | Coiflet_5 => 10
  | Biorthogonal_1_3 | Biorthogonal_1_5 => 1
  | Biorthogonal_2_2 | Biorthogonal_2_4 | Biorthogonal_2_6 | Biorthogonal_2_8 => 2
  | Biorthogonal_3_1 | Biorthogonal_3_3 | Biorthogonal_3_5 | Biorthogonal_3_7 | Biorthogonal_3_9 => 3
  | Biorthogonal_4_4 => 4 | Biorthogonal_5_5 => 5 | Biorthogonal_6_8 => 6
  | Meyer => 12
  end.

Definition orthogonal (w : wavelet) : bool :=
  match w with
  | Biorthogonal_1_3 | Biorthogonal_1_5 | Biorthogonal_2_2 | Biorthogonal_2_4 | Biorthogonal_2_6 | Biorthogonal_2_8
  | Biorthogonal_3_1 | Biorthogonal_3_3 | Biorthogonal_3_5 | Biorthogonal_3_7 | Biorthogonal_3_9
  | Biorthogonal_4_4 | Biorthogonal_5_5 | Biorthogonal_6_8 => false
  | _ => true
  end.

(** How well: the reciprocals of the accuracies. *)
Definition recovery (w : wavelet) : Z :=
  match w with Daubechies_40 => 35000 | Meyer => 160000 | Symlet_30 | Coiflet_5 => 25000000 | _ => 5000000000 end.
Definition blocking (w : wavelet) : Z :=
  match w with Meyer => 360000 | Coiflet_5 => 1800000000 | _ => 18000000000 end.
