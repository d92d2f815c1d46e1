From Coq Require Import List ZArith Lia Bool Znumtheory.
From Verif.Base Require Import Imp.
From Verif.Maths Require Import IntModel IntSpec.
Import ListNotations.
Open Scope Z_scope.

Lemma int_OK x : is_int x -> int_ x = OK x.
Proof. unfold is_int, int_. intros [H1 H2]. zcase. reflexivity. Qed.

Lemma pow_pos k : 0 <= k -> 0 < 2 ^ k.
Proof. intros. apply Z.pow_pos_nonneg; lia. Qed.

(** 2^(log2 x) <= x < 2^(log2 x + 1) *)
Lemma log2_bounds x : 1 <= x -> 0 <= Z.log2 x /\ 2 ^ Z.log2 x <= x < 2 ^ (Z.log2 x + 1).
Proof.
  intros H. pose proof (Z.log2_spec x ltac:(lia)). pose proof (Z.log2_nonneg x).
  unfold Z.succ in *. lia.
Qed.

Lemma isPow2_spec x : isPowerOfTwo x = true <-> power_of_two x.
Proof.
  unfold isPowerOfTwo. destruct (Z.ltb_spec x 1).
  - split; [discriminate|]. intros (k & Hk & ->). pose proof (pow_pos k Hk). lia.
  - destruct (log2_bounds x) as (L0 & L1 & L2); [lia|]. set (k := Z.log2 x) in *.
    destruct (Z.eqb_spec (Z.land x (x - 1)) 0) as [E|E]; split; auto; try discriminate.
    + intros _. exists k. split; auto. destruct (Z.eq_dec x (2 ^ k)) as [|NE]; auto. exfalso.
      (* bit k is set in both x and x-1 *)
      assert (B : forall y, 2 ^ k <= y < 2 ^ (k + 1) -> Z.testbit y k = true).
      { intros y Hy. apply Z.testbit_true; auto.
        replace (2 ^ (k + 1)) with (2 ^ k * 2) in Hy by (rewrite Z.pow_add_r by lia; lia).
        pose proof (pow_pos k L0). replace (y / 2 ^ k) with 1; [reflexivity|].
        apply Z.div_unique with (y - 2 ^ k); lia. }
      pose proof (B x ltac:(lia)) as B1. pose proof (B (x - 1) ltac:(lia)) as B2.
      assert (Z.testbit (Z.land x (x - 1)) k = true) by (rewrite Z.land_spec, B1, B2; auto).
      rewrite E, Z.bits_0 in H0. discriminate.
    + intros (j & Hj & ->). exfalso. apply E. apply Z.bits_inj'. intros i Hi.
      rewrite Z.land_spec, Z.bits_0. rewrite Z.pow2_bits_eqb by lia.
      destruct (Z.eqb_spec j i) as [->|]; auto. cbn [andb].
      replace (2 ^ i - 1) with (Z.ones i) by (rewrite Z.ones_equiv; lia).
      apply Z.ones_spec_high. lia.
Qed.

Lemma pow_inj_le j k : 0 <= j -> 0 <= k -> 2 ^ j <= 2 ^ k -> j <= k.
Proof. intros. apply (Z.pow_le_mono_r_iff 2); lia. Qed.

(** The shift loop doubles n once per significant bit of x. *)
Lemma shift_loop_spec : forall fuel x n, 0 <= x < 2 ^ Z.of_nat fuel -> 1 <= n ->
  let k := if x =? 0 then 0 else Z.log2 x + 1 in
  (n * 2 ^ k <= INT_MAX -> shift_loop fuel x n = OK (0, n * 2 ^ k)) /\
  (INT_MAX < n * 2 ^ k -> n <= INT_MAX -> shift_loop fuel x n = UB).
Proof.
  induction fuel as [|fuel IH]; intros x n Hx Hn k; subst k.
  - cbn in Hx. replace x with 0 by lia. unfold shift_loop. cbn. split; [|lia].
    intros _. do 2 f_equal. lia.
  - unfold shift_loop. cbn [while]. destruct (Z.eqb_spec x 0) as [->|Hne].
    + cbn. split; [|lia]. intros _. do 2 f_equal. lia.
    + cbn [negb]. destruct (log2_bounds x) as (L0 & L1 & L2); [lia|].
      assert (S1 : 0 <= Z.shiftr x 1 < 2 ^ Z.of_nat fuel).
      { rewrite Z.shiftr_div_pow2 by lia. change (2 ^ 1) with 2.
        replace (2 ^ Z.of_nat (S fuel)) with (2 * 2 ^ Z.of_nat fuel) in Hx
          by (rewrite Nat2Z.inj_succ, Z.pow_succ_r; lia).
        split; [apply Z.div_pos; lia|]. apply Z.div_lt_upper_bound; lia. }
      specialize (IH (Z.shiftr x 1) (n * 2) S1 ltac:(lia)). cbv zeta in IH.
      assert (EK : (if Z.shiftr x 1 =? 0 then 0 else Z.log2 (Z.shiftr x 1) + 1) = Z.log2 x).
      { rewrite Z.shiftr_div_pow2 by lia. change (2 ^ 1) with 2.
        destruct (Z.eqb_spec (x / 2) 0) as [E|E].
        - assert (x = 1). { pose proof (Z.div_mod x 2). pose proof (Z.mod_pos_bound x 2). lia. }
          subst x. reflexivity.
        - replace (x / 2) with (Z.shiftr x 1) by (now rewrite Z.shiftr_div_pow2 by lia).
          rewrite Z.log2_shiftr by lia. 
          assert (1 <= Z.log2 x).
          { change 1 with (Z.log2 2). apply Z.log2_le_mono.
            assert (x <> 1) by (intros ->; now apply E). lia. }
          lia. }
      rewrite EK in IH. rewrite Z.pow_add_r, Z.pow_1_r by lia.
      replace (n * (2 ^ Z.log2 x * 2)) with (n * 2 * 2 ^ Z.log2 x) by lia.
      pose proof (pow_pos (Z.log2 x) L0).
      destruct IH as [IH1 IH2]. split.
      * intros H1. rewrite int_OK by (unfold is_int; unfold INT_MIN; nia). cbn [bind]. now apply IH1.
      * intros H1 H2. destruct (Z.le_gt_cases (n * 2) INT_MAX).
        -- rewrite int_OK by (unfold is_int, INT_MIN; nia). cbn [bind]. now apply IH2.
        -- unfold int_. destruct (Z.leb_spec (n * 2) INT_MAX); [lia|]. rewrite andb_false_r. reflexivity.
Qed.

Lemma pow2_mono j k : 0 <= j <= k -> 2 ^ j <= 2 ^ k.
Proof. intros. apply Z.pow_le_mono_r; lia. Qed.

Theorem next_spec x : x <= 2 ^ 30 -> exists p, nextPowerOfTwo x = OK p /\
  (1 <= x -> is_next_power x p) /\ (x < 1 -> p = 1).
Proof.
  intros Hx. unfold nextPowerOfTwo. destruct (isPowerOfTwo x) eqn:E.
  - apply isPow2_spec in E. exists x. splits; auto.
    + intros _. split; auto. split; [lia|]. auto.
    + destruct E as (k & Hk & ->). pose proof (pow_pos k Hk). lia.
  - destruct (Z.ltb_spec x 1); [exists 1; splits; auto; lia|].
    destruct (log2_bounds x) as (L0 & L1 & L2); [lia|].
    assert (NP : ~ power_of_two x) by (rewrite <- isPow2_spec; congruence).
    assert (Z.log2 x < 30).
    { apply (Z.pow_lt_mono_r_iff 2); [lia|lia|].
      destruct (Z.eq_dec x (2 ^ 30)) as [->|]; [|lia].
      exfalso. apply NP. exists 30. lia. }
    destruct (shift_loop_spec 32 x 1) as [SL _]; [change (Z.of_nat 32) with 32; lia|lia|].
    destruct (Z.eqb_spec x 0); [lia|].
    pose proof (pow2_mono (Z.log2 x + 1) 30 ltac:(lia)).
    rewrite SL by (unfold INT_MAX; change (2 ^ 31) with (2 * 2 ^ 30); lia).
    cbn [bind]. rewrite Z.mul_1_l. eexists; split; [reflexivity|]. split; [|lia].
    intros _. split; [exists (Z.log2 x + 1); lia|]. split; [lia|].
    intros q (j & Hj & ->) Hq. apply pow2_mono.
    assert (Z.log2 x < j); [|lia].
    apply (Z.pow_lt_mono_r_iff 2); [lia|lia|].
    assert (x <> 2 ^ j) by (intros ->; apply NP; exists j; auto). lia.
Qed.

Theorem next_overflow x : 2 ^ 30 < x <= INT_MAX -> nextPowerOfTwo x = UB.
Proof.
  intros Hx. unfold nextPowerOfTwo, INT_MAX in *.
  assert (L : Z.log2 x = 30).
  { apply Z.log2_unique; [lia|]. cbn. change (2 ^ 30) with 1073741824 in *. lia. }
  destruct (isPowerOfTwo x) eqn:E.
  - apply isPow2_spec in E as (k & Hk & ->). rewrite Z.log2_pow2 in L by lia. subst k. lia.
  - change (2 ^ 30) with 1073741824 in *. change (2 ^ 31) with 2147483648 in *.
    destruct (Z.ltb_spec x 1); [lia|].
    destruct (shift_loop_spec 32 x 1) as [_ SL]; [cbn; lia|lia|].
    destruct (Z.eqb_spec x 0); [lia|]. rewrite L in SL. rewrite SL; [reflexivity|cbn; lia|cbn; lia].
Qed.

Theorem previous_spec x : is_int x -> exists p, previousPowerOfTwo x = OK p /\
  (1 <= x -> is_previous_power x p) /\ (x < 1 -> p = 1).
Proof.
  intros [_ Hx]. unfold INT_MAX in Hx. unfold previousPowerOfTwo. destruct (isPowerOfTwo x) eqn:E.
  - apply isPow2_spec in E. exists x. splits; auto.
    + intros _. split; auto. split; [lia|]. auto.
    + destruct E as (k & Hk & ->). pose proof (pow_pos k Hk). lia.
  - destruct (Z.ltb_spec x 1); [exists 1; splits; auto; lia|].
    destruct (log2_bounds x) as (L0 & L1 & L2); [lia|].
    assert (x <> 1). { intros ->. discriminate. }
    assert (L3 : 1 <= Z.log2 x) by (change 1 with (Z.log2 2); apply Z.log2_le_mono; lia).
    assert (Z.log2 x < 31).
    { apply (Z.pow_lt_mono_r_iff 2); [lia|lia|]. lia. }
    assert (D : Z.shiftr x 1 = x / 2) by (now rewrite Z.shiftr_div_pow2 by lia).
    assert (1 <= x / 2) by (apply Z.div_le_lower_bound; lia).
    assert (x / 2 < x) by (apply Z.div_lt; lia).
    destruct (shift_loop_spec 32 (Z.shiftr x 1) 1) as [SL _]; [rewrite D; change (Z.of_nat 32) with 32; lia|lia|].
    rewrite Z.log2_shiftr in SL by lia. rewrite D in *.
    destruct (Z.eqb_spec (x / 2) 0); [lia|].
    replace (Z.max 0 (Z.log2 x - 1) + 1) with (Z.log2 x) in SL by lia.
    rewrite Z.mul_1_l in SL. rewrite SL by (unfold INT_MAX; lia). cbn [bind].
    eexists; split; [reflexivity|]. split; [|lia]. intros _.
    split; [exists (Z.log2 x); lia|]. split; [lia|]. intros q (j & Hj & ->) Hq.
    apply pow2_mono. assert (j < Z.log2 x + 1); [|lia]. apply (Z.pow_lt_mono_r_iff 2); lia.
Qed.

Theorem nearest_spec x : 2 - 2 ^ 31 <= x <= 2 ^ 30 ->
  exists p, nearestPowerOfTwo x = OK p /\ is_nearest_power x p.
Proof.
  intros Hx. unfold nearestPowerOfTwo. destruct (isPowerOfTwo x) eqn:E.
  - apply isPow2_spec in E. exists x. split; auto. split; auto. intros q Hq.
    rewrite Z.sub_diag. cbn [Z.abs]. destruct (Z.eq_dec q x); [right; subst; lia|left; lia].
  - assert (NP : ~ power_of_two x) by (rewrite <- isPow2_spec; congruence).
    change (2 ^ 30) with 1073741824 in *. change (2 ^ 31) with 2147483648 in *.
    destruct (previous_spec x) as (p0 & E0 & P0 & P0'). { unfold is_int, INT_MIN, INT_MAX; change (2 ^ 31) with 2147483648; lia. }
    destruct (next_spec x) as (p1 & E1 & P1 & P1'). { cbn. lia. }
    rewrite E0, E1. cbn [bind].
    destruct (Z.lt_ge_cases x 1) as [L|L].
    + rewrite P0', P1' by auto. do 2 (rewrite int_OK by (unfold is_int, INT_MIN, INT_MAX; change (2 ^ 31) with 2147483648; lia); cbn [bind]).
      exists 1. split; [zcase; reflexivity|]. split; [exists 0; cbn; lia|].
      intros q (k & Hk & ->). pose proof (pow_pos k Hk).
      destruct (Z.eq_dec (2 ^ k) 1); [right|left]; lia.
    + destruct (P0 L) as (Q0 & Q1 & Q2). destruct (P1 L) as (R0 & R1 & R2).
      assert (p1 <= 1073741824) by (apply R2; [exists 30; cbn; lia|lia]).
      assert (0 < p0) by (destruct Q0 as (k & Hk & ->); now apply pow_pos).
      assert (x <> p0) by congruence. assert (x <> p1) by congruence.
      do 2 (rewrite int_OK by (unfold is_int, INT_MIN, INT_MAX; change (2 ^ 31) with 2147483648; lia); cbn [bind]).
      eexists; split; [reflexivity|].
      destruct (Z.ltb_spec (x - p0) (p1 - x)); (split; [auto|]); intros q Hq;
        (destruct (Z.lt_ge_cases q x) as [Hqx|Hqx];
         [assert (q <= p0) by (apply Q2; auto; lia) | assert (p1 <= q) by (apply R2; auto; lia)]); lia.
Qed.

Theorem gcd_spec : forall fuel a b, 0 <= a <= INT_MAX -> 1 <= b <= INT_MAX -> b < Z.of_nat fuel ->
  gcd_c fuel a b = OK (Z.gcd a b).
Proof.
  induction fuel as [|fuel IH]; intros a b Ha Hb Hf; [lia|]. cbn [gcd_c].
  destruct (Z.eqb_spec b 0); [lia|].
  assert (0 <= Z.quot a b <= a).
  { rewrite Z.quot_div_nonneg by lia. split; [apply Z.div_pos; lia|].
    apply Z.div_le_upper_bound; nia. }
  rewrite int_OK by (unfold is_int, INT_MIN; lia). cbn [bind].
  rewrite Z.rem_mod_nonneg by lia. pose proof (Z.mod_pos_bound a b ltac:(lia)).
  destruct (Z.eqb_spec (a mod b) 0) as [E|E].
  - f_equal. apply Z.mod_divide in E; [|lia]. rewrite Z.gcd_comm. symmetry.
    apply Z.divide_gcd_iff; auto; lia.
  - rewrite IH by lia. f_equal. rewrite (Z.gcd_comm a b), Z.gcd_comm.
    rewrite Z.gcd_mod by lia. reflexivity.
Qed.

(** *** circShift *)
Section Circ.
  Context {T : Type} (z : T).
  Notation Zn := (zn z).

  Lemma shift_once (d : list T) n : 1 <= n <= zlen d ->
    exists d', (temp <- aget d (n - 1) ;;
      d <- for_down (n - 2) 0 (fun k d => v <- aget d k ;; aset d (k + 1) v) d ;;
      aset d 0 temp) = OK d' /\ rotated z n 1 d d'.
  Proof.
    intros Hn. rewrite (aget_OK z) by lia. cbn [bind].
    match goal with |- context [for_down (n - 2) 0 ?F ?S] =>
      destruct (for_down_inv (fun k s => zlen s = zlen d /\ forall i, 0 <= i < zlen d ->
        Zn s i = if (k + 1 <? i) && (i <? n) then Zn d (i - 1) else Zn d i) (n - 2) 0 F S)
        as (s & E & HL & HV); [lia| | |] end.
    - split; auto. intros i Hi. zcase; auto.
    - intros k s Hk (HL & HV). rewrite (aget_OK z) by lia. cbn [bind]. rewrite aset_OK by lia.
      eexists; split; [reflexivity|]. split; [zl; lia|]. intros i Hi. rewrite zn_upd by lia.
      rewrite !HV by lia. zcase; auto. f_equal; lia.
    - rewrite E. cbn [bind]. rewrite aset_OK by lia. eexists; split; [reflexivity|].
      split; [zl; lia|]. split.
      + intros i Hi. destruct (Z.eq_dec i (n - 1)) as [->|].
        * replace (n - 1 + 1) with n by lia. rewrite Z.mod_same by lia.
          rewrite zn_upd by lia. reflexivity.
        * rewrite Z.mod_small by lia. rewrite zn_upd by lia. rewrite HV by lia. zcase; auto. f_equal; lia.
      + intros i Hi. rewrite zn_upd by lia. rewrite HV by lia. zcase; auto.
  Qed.

  Lemma rotated_0 d n : 1 <= n -> rotated z n 0 d d.
  Proof. intros. split; auto. split; auto. intros i Hi. rewrite Z.add_0_r, Z.mod_small by lia. auto. Qed.

  Lemma rotated_trans n s t d d1 d2 : 1 <= n -> rotated z n s d d1 -> rotated z n t d1 d2 ->
    rotated z n (s + t) d d2.
  Proof.
    intros Hn (L1 & A1 & B1) (L2 & A2 & B2). split; [lia|]. split.
    - intros i Hi. rewrite <- A1 by lia. rewrite <- A2 by (apply Z.mod_pos_bound; lia).
      f_equal. rewrite Z.add_mod_idemp_l by lia. f_equal. lia.
    - intros i Hi. rewrite B2, B1 by lia. auto.
  Qed.

  Lemma rotated_unique n s d d1 d2 : 1 <= n <= zlen d -> rotated z n s d d1 -> rotated z n s d d2 -> d1 = d2.
  Proof.
    intros Hn (L1 & A1 & B1) (L2 & A2 & B2). apply (zn_ext z); [lia|]. intros i Hi.
    destruct (Z.lt_ge_cases i n).
    - assert (E : ((i - s) mod n + s) mod n = i).
      { rewrite Z.add_mod_idemp_l by lia. replace (i - s + s) with i by lia. apply Z.mod_small. lia. }
      rewrite <- E. rewrite A1, A2 by (apply Z.mod_pos_bound; lia). reflexivity.
    - rewrite B1, B2 by lia. reflexivity.
  Qed.

  Theorem circShift_spec d n s : 1 <= n <= zlen d -> 0 <= s ->
    exists d', circShift d n s = OK d' /\ rotated z n s d d'.
  Proof.
    intros Hn Hs. unfold circShift. destruct (Z.eqb_spec n 0); [lia|].
    rewrite Z.rem_mod_nonneg by lia. pose proof (Z.mod_pos_bound s n ltac:(lia)).
    match goal with |- context [for_up 0 ?N ?F ?S] =>
      destruct (for_up_inv (fun i x => rotated z n i d x) 0 N F S) as (d' & E & R); [lia| | |] end.
    - apply rotated_0; lia.
    - intros i x Hi HR. pose proof HR as (L & _). destruct (shift_once x n) as (x' & E & R'); [lia|].
      exists x'. split; auto. apply (rotated_trans n i 1 d x x'); auto; lia.
    - exists d'. split; auto. destruct R as (L & A & B). split; auto. split; auto.
      intros i Hi. rewrite <- (A i) by lia. f_equal.
      rewrite Z.add_mod_idemp_r by lia. reflexivity.
  Qed.

  (** A negative shift leaves the data alone. *)
  Theorem circShift_negative (d : list T) n s : 1 <= n -> s <= 0 -> circShift d n s = OK d.
  Proof.
    intros Hn Hs. unfold circShift. destruct (Z.eqb_spec n 0); [lia|].
    apply for_up_empty. pose proof (Z.rem_nonpos s n). lia.
  Qed.
End Circ.
