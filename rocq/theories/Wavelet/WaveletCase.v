(** Particular signals. *)
From Coq Require Import List ZArith Reals Lia Lra Bool Psatz.
From Flocq Require Import Core.
From Verif.Base Require Import Imp Sums RealOps Loops Dbl.
From Verif.Wavelet Require Import WaveletModel WaveletSpec WaveletTables WaveletProofs WaveletChecks WaveletResults.
Import ListNotations.
Open Scope R_scope.

(** A click through the filters of Biorthogonal 3.1 comes out with half as much energy again. *)
Lemma click_3_1 : ~ keeps_energy (1 / 2) (lows Biorthogonal_3_1) (highs Biorthogonal_3_1).
Proof.
  intros K. specialize (K (fun t => if (t =? 0)%Z then 1 else 0) 1%Z 3%Z ltac:(lia)).
  assert (L : zlen (lows Biorthogonal_3_1) = 4%Z) by (unfold lows; rewrite zlen_map; reflexivity).
  assert (H : zlen (highs Biorthogonal_3_1) = 4%Z) by (unfold highs; rewrite zlen_map; reflexivity).
  specialize (K ltac:(rewrite L; lia)). assert (Q : forall t, (t < 0)%Z \/ (1 <= t)%Z -> (if (t =? 0)%Z then 1 else 0) = 0).
  { intros t Ht. destruct (Z.eqb_spec t 0); [lia|reflexivity]. }
  specialize (K Q).
  assert (A : forall c k, zlen c = 4%Z -> (0 <= k)%Z -> analysed c (fun t => if (t =? 0)%Z then 1 else 0) k = zn 0 c (2 * k)).
  { intros c k Hc Hk. unfold analysed. rewrite Hc. change 4%Z with (0 + 1 + 1 + 1 + 1)%Z. rewrite !rsum_S, rsum_0 by lia.
    change (0 + 1)%Z with 1%Z. change (1 + 1)%Z with 2%Z. change (2 + 1)%Z with 3%Z.
    destruct (Z.eqb_spec (2 * k - 0) 0), (Z.eqb_spec (2 * k - 1) 0), (Z.eqb_spec (2 * k - 2) 0), (Z.eqb_spec (2 * k - 3) 0); try lia.
    - replace (2 * k)%Z with 0%Z by lia. ring.
    - replace (2 * k)%Z with 2%Z by lia. ring.
    - rewrite (zn_out _ c (2 * k)) by lia. ring. }
  change 3%Z with (0 + 1 + 1 + 1)%Z in K. rewrite !rsum_S, !rsum_0 in K by lia. change (0 + 1 + 1)%Z with 2%Z in K. change (0 + 1)%Z with 1%Z in K.
  change 1%Z with (0 + 1)%Z in K at 5. rewrite !A in K by (auto; lia). revert K.
  destruct (near_at (low Biorthogonal_3_1) (2 * 0) eq_refl) as [l0 _]. destruct (near_at (low Biorthogonal_3_1) (2 * 1) eq_refl) as [l2 _].
  destruct (near_at (high Biorthogonal_3_1) (2 * 0) eq_refl) as [h0 _]. destruct (near_at (high Biorthogonal_3_1) (2 * 1) eq_refl) as [h2 _].
  rewrite !(zn_out 0 _ (2 * 2)) by lia. fold (lows Biorthogonal_3_1) in l0, l2. fold (highs Biorthogonal_3_1) in h0, h2.
  assert (O : rsum 1 (fun t : Z => (if (t =? 0)%Z then 1 else 0) * (if (t =? 0)%Z then 1 else 0)) = 1).
  { rewrite rsum_first, rsum_0 by lia. cbn. ring. }
  rewrite !O. assert (UB : U <= 1 / 1000).
  { eapply Rle_trans; [apply U_bound|]. vm_compute (10 ^ 28)%Z. lra. }
  change (zn 0 (map decimal (low Biorthogonal_3_1)) (2 * 0)) with (decimal (-35355339059327)) in l0.
  change (zn 0 (map decimal (low Biorthogonal_3_1)) (2 * 1)) with (decimal 106066017177982) in l2.
  change (zn 0 (map decimal (high Biorthogonal_3_1)) (2 * 0)) with (decimal (-17677669529664)) in h0.
  change (zn 0 (map decimal (high Biorthogonal_3_1)) (2 * 1)) with (decimal (-53033008588991)) in h2.
  unfold decimal in *. change (10 ^ 14)%Z with 100000000000000%Z in *.
  generalize dependent (zn 0 (lows Biorthogonal_3_1) (2 * 0)). generalize dependent (zn 0 (lows Biorthogonal_3_1) (2 * 1)).
  generalize dependent (zn 0 (highs Biorthogonal_3_1) (2 * 0)). generalize dependent (zn 0 (highs Biorthogonal_3_1) (2 * 1)).
  intros d Hd c Hc b Hb a Ha K. apply Rabs_le_inv in Ha, Hb, Hc, Hd, K.
  assert (35 / 100 * (35 / 100) <= a * a) by nra. assert (105 / 100 <= b) by lra. assert (105 / 100 * (105 / 100) <= b * b) by (apply Rmult_le_compat; lra).
  assert (17 / 100 * (17 / 100) <= c * c) by nra. assert (d <= - (52 / 100)) by lra. assert (52 / 100 * (52 / 100) <= d * d) by nra. lra.
Qed.

(** A ramp is blocked by Daubechies 2, and not by Haar. *)
Lemma ramp_blocked k : Rabs (analysed (highs Daubechies_2) (fun t => 3 - IZR t) k) <= / 18000000000 * (Rabs (3 - 2 * IZR k) + 4).
Proof.
  pose proof (blocks Daubechies_2 (fun m => if (m =? 0)%Z then 3 - 2 * IZR k else 4) (fun t => 3 - IZR t) k) as B.
  change (order Daubechies_2) with (0 + 1 + 1)%Z in B. change (blocking Daubechies_2) with 18000000000%Z in B.
  assert (L : zlen (highs Daubechies_2) = 4%Z) by (unfold highs; rewrite zlen_map; reflexivity). rewrite L in B.
  eapply Rle_trans; [apply B|].
  - intros i Hi. unfold polynomial. rewrite !rsum_S, rsum_0 by lia. rewrite minus_IZR, mult_IZR. change (Z.to_nat 0) with 0%nat. change (Z.to_nat (0 + 1)) with 1%nat. change (0 =? 0)%Z with true. change (0 + 1 =? 0)%Z with false. cbv iota. rewrite pow_O, pow_1. field.
  - rewrite !rsum_S, rsum_0 by lia. change (0 =? 0)%Z with true. change (0 + 1 =? 0)%Z with false. cbv iota. rewrite (Rabs_pos_eq 4) by lra. lra.
Qed.

