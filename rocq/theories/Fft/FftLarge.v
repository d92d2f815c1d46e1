(** kf_bfly_generic keeps its index into the twiddle factors in an int: for sizes above 2^30 it overflows. *)
From Coq Require Import Reals ZArith Lia Lra List Bool.
From Verif.Base Require Import Imp Sums RealOps Loops.
From Verif.Fft Require Import Cplx FftModel FftSpec FftBfly FftWork FftProofs FftResults.
Import ListNotations.
Open Scope Z_scope.

Fixpoint facs7 (e : nat) : list Z :=
  match e with O => [] | S e => 7 :: 7 ^ Z.of_nat e :: facs7 e end.

Lemma find7 f n fs p : 7 <= fs -> (p = 4 \/ p = 7) -> n mod 4 <> 0 -> n mod 2 <> 0 -> n mod 3 <> 0 -> n mod 5 <> 0 -> n mod 7 = 0 ->
  find_p (4 + f) n fs p = OK 7.
Proof.
  intros Hf Hp H4 H2 H3 H5 H7. unfold find_p.
  destruct Hp as [->| ->].
  - assert (N4 : next_p n fs 4 = 2) by (unfold next_p; cbn [Z.eqb Pos.eqb]; destruct (Z.gtb_spec 2 fs); [lia|auto]).
    assert (N2 : next_p n fs 2 = 3) by (unfold next_p; cbn [Z.eqb Pos.eqb]; destruct (Z.gtb_spec 3 fs); [lia|auto]).
    assert (N3 : next_p n fs 3 = 5) by (unfold next_p; cbn [Z.eqb Pos.eqb]; change (3 + 2) with 5; destruct (Z.gtb_spec 5 fs); [lia|auto]).
    assert (N5 : next_p n fs 5 = 7) by (unfold next_p; cbn [Z.eqb Pos.eqb]; change (5 + 2) with 7; destruct (Z.gtb_spec 7 fs); [lia|auto]).
    cbn [while Nat.add]. cbn [bind]. rewrite N4, N2, N3, N5.
    apply Z.eqb_neq in H4, H2, H3, H5. rewrite H4, H2, H3, H5. cbn [negb].
    destruct f; cbn [while]; rewrite H7; reflexivity.
  - cbn [while Nat.add]. rewrite H7. reflexivity.
Qed.

Lemma pow7_mod e : (7 ^ Z.of_nat (S e)) mod 7 = 0 /\ (7 ^ Z.of_nat (S e)) / 7 = 7 ^ Z.of_nat e.
Proof.
  rewrite Nat2Z.inj_succ, Z.pow_succ_r by lia. rewrite Z.mul_comm. split; [apply Z.mod_mul; lia|apply Z.div_mul; lia].
Qed.
Lemma pow7_coprime e q : 1 < q -> Z.gcd 7 q = 1 -> (7 ^ Z.of_nat e) mod q <> 0.
Proof.
  intros Hq G E. apply Z.mod_divide in E; [|lia].
  induction e as [|e IH].
  - cbn in E. apply Z.divide_1_r in E. lia.
  - rewrite Nat2Z.inj_succ, Z.pow_succ_r in E by lia. apply Z.gauss in E; [auto|]. now rewrite Z.gcd_comm.
Qed.

Lemma factor7 fs e : 7 <= fs -> forall fuel p buf, (p = 4 \/ p = 7) -> zlen buf + 2 * Z.of_nat e <= 64 -> (1 <= e <= fuel)%nat ->
  kf_factor_loop fuel fs (7 ^ Z.of_nat e) p buf = OK (buf ++ facs7 e).
Proof.
  intros Hf. induction e as [|e IH]; intros fuel p buf Hp Hb He; [lia|].
  destruct fuel as [|fuel]; [lia|].
  destruct (pow7_mod e) as (M & D).
  cbn [kf_factor_loop]. replace (Z.to_nat fs + 8)%nat with (4 + (Z.to_nat fs + 4))%nat by lia.
  rewrite find7; auto; try (apply pow7_coprime; [lia|reflexivity]).
  ret. cbv zeta. rewrite D.
  destruct (Z.leb_spec (zlen buf + 2) facbuf_len) as [_|B]; [|unfold facbuf_len in B; lia].
  destruct e as [|e].
  - destruct (Z.gtb_spec (7 ^ Z.of_nat 0) 1); [exfalso; cbn in *; lia|]. reflexivity.
  - destruct (Z.gtb_spec (7 ^ Z.of_nat (S e)) 1) as [_|B].
    + rewrite IH; auto; try lia.
      * f_equal. rewrite <- app_assoc. reflexivity.
      * zl. lia.
    + exfalso. assert (1 < 7 ^ Z.of_nat (S e)) by (apply Z.pow_gt_1; lia). lia.
Qed.

(** A leaf of the recursion: the third output reads a twiddle factor at a negative index. *)
Lemma leaf_ub st F s N : 7 * s = N -> nfft st = N -> zlen (twiddles st) = N -> zlen F = N -> N < 2 ^ 31 -> 2 ^ 31 <= 8 * s ->
  kf_bfly_generic F 0 s st 1 7 = UB.
Proof.
  intros Hs HN HT HF H1 H2. unfold kf_bfly_generic.
  rewrite (for_up_first 0 1) by lia.
  rewrite (for_up_set 7 (fun q1 => aget F (0 + (0 + q1 * 1))) (fun q => zn c0 F q)).
  2: { zl; lia. }
  2:{ intros i Hi. rewrite (aget_OK c0) by lia. do 2 f_equal. lia. }
  ret. match goal with |- context [aget ?S0 0] => set (sc := S0) end.
  assert (LS : zlen sc = 7) by (unfold sc; zl; lia). clearbody sc.
  assert (W : forall x, 0 <= x < 2 ^ 31 -> wrap32 x = x).
  { intros x Hx. unfold wrap32. rewrite Z.mod_small by lia. lia. }
  assert (G : forall k F, 0 <= k <= 1 -> zlen F = N -> exists F', generic_sum F 0 s st sc k 7 = OK F' /\ zlen F' = N).
  { intros k F0 Hk HF0. unfold generic_sum.
    match goal with |- context [for_up 1 7 ?B ?S0] =>
      destruct (for_up_inv (fun q (x : Z * list cplx) => fst x = (q - 1) * s * k /\ zlen (snd x) = N) 1 7 B S0)
        as ((a & b) & E & I1 & I2); [lia| | |rewrite E] end.
    - cbn [fst snd]. split; [lia|auto].
    - intros q (tw & F1) Hq (I1 & I2). cbn [fst snd] in *. cbv zeta.
      assert (T : 0 <= tw + s * k < N) by (assert (k = 0 \/ k = 1) as [->| ->] by lia; nia).
      rewrite W by lia. rewrite HN.
      replace (tw + s * k >=? N) with false by (symmetry; rewrite Z.geb_leb; apply Z.leb_gt; lia).
      rewrite (aget_OK c0) by lia. ret. rewrite (aget_OK c0) by nia. ret.
      rewrite (aget_OK c0) by nia. ret. rewrite aset_OK by nia. ret.
      eexists; split; [reflexivity|]. cbn [fst snd]. split; [nia|]. zl. lia.
    - ret. exists b. auto. }
  rewrite (for_up_first 0 7) by lia. rewrite (aget_OK c0) by lia. ret. change (0 + 0 * 1) with 0. change (0 + 0) with 0.
  rewrite aset_OK by lia. ret. destruct (G 0 (upd F (Z.to_nat 0) (zn c0 sc 0))) as (F1 & E1 & L1); [lia|zl; lia|].
  rewrite E1. ret.
  change (0 + 1) with 1. rewrite (for_up_first 1 7) by lia. ret. change (0 + (0 + 1 * 1)) with 1. change (0 + 1 * 1) with 1.
  rewrite aset_OK by lia. ret. destruct (G 1 (upd F1 (Z.to_nat 1) (zn c0 sc 0))) as (F2 & E2 & L2); [lia|zl; lia|].
  rewrite E2. ret.
  change (1 + 1) with 2. rewrite (for_up_first 2 7) by lia. ret. change (0 + (0 + 2 * 1)) with 2. change (0 + 2 * 1) with 2.
  rewrite aset_OK by lia. ret. set (F3 := upd F2 _ _). assert (L3 : zlen F3 = N) by (unfold F3; zl; lia). clearbody F3.
  assert (X : generic_sum F3 0 s st sc 2 7 = UB).
  { unfold generic_sum. match goal with |- context [for_up 1 7 ?B _] => set (body := B) end.
    assert (Step : forall q tw F0, 1 <= q < 7 -> 0 <= tw -> tw + s * 2 < N -> zlen F0 = N ->
      exists F', body q (tw, F0) = OK (tw + s * 2, F') /\ zlen F' = N).
    { intros q tw F0 Hq H0 Ht HF0. unfold body. cbv zeta. rewrite W by nia. rewrite HN.
      replace (tw + s * 2 >=? N) with false by (symmetry; rewrite Z.geb_leb; apply Z.leb_gt; lia).
      rewrite (aget_OK c0) by lia. ret. rewrite (aget_OK c0) by nia. ret.
      rewrite (aget_OK c0) by nia. ret. rewrite aset_OK by nia. ret.
      eexists; split; [reflexivity|]. zl. lia. }
    rewrite (for_up_first 1 7) by lia. destruct (Step 1 0 F3) as (G1 & -> & M1); [lia..|]. ret.
    rewrite (for_up_first (1 + 1) 7) by lia. destruct (Step (1 + 1) (0 + s * 2) G1) as (G2 & -> & M2); [lia..|]. ret.
    rewrite (for_up_first (1 + 1 + 1) 7) by lia. destruct (Step (1 + 1 + 1) (0 + s * 2 + s * 2) G2) as (G3 & -> & M3); [lia..|]. ret.
    rewrite (for_up_first (1 + 1 + 1 + 1) 7) by lia. unfold body at 1. cbv zeta.
    assert (E : wrap32 (0 + s * 2 + s * 2 + s * 2 + s * 2) = 8 * s - 2 ^ 32).
    { unfold wrap32. rewrite <- (Z_mod_plus_full _ (-1)). rewrite Z.mod_small; lia. }
    rewrite E, HN. replace (8 * s - 2 ^ 32 >=? N) with false by (symmetry; rewrite Z.geb_leb; apply Z.leb_gt; lia).
    rewrite (aget_OK c0) by lia. ret. unfold aget at 1. destruct (Z.ltb_spec (8 * s - 2 ^ 32) 0); [reflexivity|lia]. }
  rewrite X. reflexivity.
Qed.

Lemma work_ub st N e : forall F f fstride, fstride * 7 ^ Z.of_nat (S e) = N -> 1 <= fstride -> nfft st = N ->
  zlen (twiddles st) = N -> zlen F = N -> zlen f = N -> N < 2 ^ 31 -> 2 ^ 31 * 7 <= 8 * N ->
  kf_work st (facs7 (S e)) F 0 f 0 fstride 1 = UB.
Proof.
  induction e as [|e IH]; intros F f fs Hf H1 HN HT HF Hff B1 B2.
  - change (facs7 1) with [7; 1]. cbn [kf_work]. cbn [Z.eqb Pos.eqb].
    change (7 ^ Z.of_nat 1) with 7 in Hf.
    match goal with |- context [for_up 0 7 ?B F] =>
      destruct (for_up_inv (fun _ (x : list cplx) => zlen x = N) 0 7 B F) as (F' & E & L); [lia|auto| |rewrite E] end.
    + intros q F0 Hq HF0. rewrite (aget_OK c0) by nia. ret. rewrite aset_OK by lia. eexists; split; [reflexivity|]. zl. lia.
    + ret. unfold bfly. cbn [Z.eqb Pos.eqb]. apply (leaf_ub st F' fs N); auto; lia.
  - change (facs7 (S (S e))) with (7 :: 7 ^ Z.of_nat (S e) :: facs7 (S e)). cbn [kf_work].
    destruct (Z.eqb_spec (7 ^ Z.of_nat (S e)) 1) as [E|_].
    { assert (1 < 7 ^ Z.of_nat (S e)) by (apply Z.pow_gt_1; lia). lia. }
    rewrite (for_up_first 0 7) by lia. rewrite !Z.mul_0_l. rewrite !Z.add_0_l.
    change (Nat.add 0 0) with 0%nat. rewrite IH; auto; try lia.
    rewrite <- Hf. rewrite (Nat2Z.inj_succ (S e)), Z.pow_succ_r by lia. ring.
Qed.

(** So a size which fits an int, all buffers of that size, and every call is undefined. *)
Theorem fft_overflow : exists n, 1 <= n < 2 ^ 31 /\ forall ji jo, zlen ji = n -> zlen jo = n ->
  exists o, fft_new n ji jo = OK o /\
    forall inv ri ii ro io, n <= zlen ri -> fits n ii -> fft_process o inv ri ii ro io = UB.
Proof.
  exists (7 ^ Z.of_nat 11). set (N := 7 ^ Z.of_nat 11).
  assert (HN : N = 1977326743) by reflexivity. split; [lia|]. intros ji jo L1 L2.
  assert (FAC : kf_factor N = OK (facs7 11)).
  { unfold kf_factor. unfold N at 3. rewrite factor7; auto.
    - rewrite HN. apply Z.leb_le. reflexivity.
    - change (zlen (@nil Z)) with 0. lia.
    - lia. }
  assert (P : 1 * 7 ^ Z.of_nat 11 = N) by reflexivity. clearbody N.
  unfold fft_new, kiss_fft_alloc. rewrite FAC. ret. ret. ret. ret. eexists; split; [reflexivity|].
  intros inv ri ii ro io Lr Li. unfold fft_process. cbn [m_n m_planf m_plani m_kin m_kout].
  rewrite (for_up_tab (A := cplx) N _ (input ri ii)); [|lia|].
  2:{ intros i s Hi _ _ _. unfold input. rewrite (aget_OK 0%R) by lia. ret.
      destruct ii as [l|]; cbn [fits] in Li; [rewrite (aget_OK 0%R) by lia|]; reflexivity. }
  ret. unfold kiss_fft. destruct inv; cbn [factors nfft]; rewrite (work_ub _ N 10); try reflexivity; try exact P; cbn [nfft twiddles]; try lia; zl; lia.
Qed.
