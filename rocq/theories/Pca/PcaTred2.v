(** tred2: A z = z T with z orthonormal and T tridiagonal. *)
From Coq Require Import List ZArith Reals Lia Lra Bool Psatz.
From Verif.Base Require Import Imp Sums RealOps Loops Matrix Tables.
From Verif.Pca Require Import PcaModel PcaSpec PcaMath PcaHouse.
Import ListNotations.
Open Scope Z_scope.

Ltac zdec := repeat match goal with
    | |- context[?a <? ?b] => destruct (Z.ltb_spec a b); try lia
    | |- context[?a <=? ?b] => destruct (Z.leb_spec a b); try lia
    | |- context[?a =? ?b] => destruct (Z.eqb_spec a b); try lia
    end; cbn [andb orb].

(** An accumulation loop. *)
Lemma for_up_rsum lo hi (f : Z -> R) (s0 : R) body : 0 <= lo -> lo <= hi -> (forall k s, lo <= k < hi -> body k s = OK (s + f k)%R) ->
  for_up lo hi body s0 = OK (s0 + (rsum hi f - rsum lo f))%R.
Proof.
  intros H0 H B. set (S := fun k => (s0 + (rsum k f - rsum lo f))%R).
  replace s0 with (S lo) at 1 by (unfold S; ring). apply (for_up_path S); auto.
  intros k Hk. rewrite B by auto. unfold S. rewrite rsum_S by lia. f_equal. ring.
Qed.
Lemma for_up_rsum0 hi (f : Z -> R) body : 0 <= hi -> (forall k s, 0 <= k < hi -> body k s = OK (s + f k)%R) ->
  for_up 0 hi body 0%R = OK (rsum hi f).
Proof. intros H B. rewrite (for_up_rsum 0 hi f) by (auto; lia). rewrite (rsum_0 0) by lia. f_equal. ring. Qed.

Section Tred2.
  Variable n : Z.

  (** The symmetric matrix stored in the lower triangle. *)
  Definition low (a : Z -> Z -> R) (x y : Z) : R := if y <=? x then a x y else a y x.
  Lemma low_sym a x y : low a x y = low a y x.
  Proof. unfold low. zdec; auto. assert (x = y) by lia. now subst. Qed.

  Lemma low_ge a x y : y <= x -> low a x y = a x y.
  Proof. intros. unfold low. now rewrite (proj2 (Z.leb_le y x)) by lia. Qed.
  Lemma low_lt a x y : x < y -> low a x y = a y x.
  Proof. intros. unfold low. now rewrite (proj2 (Z.leb_gt y x)) by lia. Qed.

  (** *** First loop *)
  Section Step.
    Variables (i : Z) (a : Z -> Z -> R) (d e : Z -> R).
    Hypotheses (Hi : 1 <= i) (Hn : i < n).

    Lemma row_scale_ok : row_scale (tab2 n n a) i (i - 1) = OK (rsum i (fun k => Rabs (a i k))).
    Proof.
      unfold row_scale. replace (i - 1 + 1) with i by lia. apply for_up_rsum0; [lia|]. intros k s Hk. rewrite mget_tab by lia. reflexivity.
    Qed.

    Lemma scale_row_ok scale : scale_row (tab2 n n a) i (i - 1) scale =
      OK (tab2 n n (fun x y => if (x =? i) && (y <? i) then (a x y / scale)%R else a x y), rsum i (fun k => (a i k / scale) * (a i k / scale))%R).
    Proof.
      unfold scale_row. replace (i - 1 + 1) with i by lia.
      set (S := fun k => (tab2 n n (fun x y => if (x =? i) && (y <? k) then (a x y / scale)%R else a x y), rsum k (fun k => (a i k / scale) * (a i k / scale))%R)).
      replace (tab2 n n a, 0%R) with (S 0).
      2:{ unfold S. rewrite rsum_0 by lia. f_equal. apply tab2_ext. intros x y Hx Hy. zdec; reflexivity. }
      apply (for_up_path S); [lia|]. intros k Hk. unfold S. cbv beta iota. rewrite mget_tab by lia. cbn [bind]. rewrite mput_tab by lia. cbn [bind].
      rewrite mget_tab by lia. cbn [bind]. rewrite rsum_S by lia. unfold set2. rewrite !Z.eqb_refl, Z.ltb_irrefl. cbn [andb]. f_equal. f_equal.
      apply tab2_ext. intros x y Hx Hy. zdec; subst; try reflexivity.
    Qed.

    (** u in row i; p in e, u/h in column i. *)
    Variables (u : Z -> R) (h : R).
    Let p (j : Z) : R := (rsum i (fun k => low a j k * u k) / h)%R.
    Let au (x y : Z) : R := if (x =? i) && (y <? i) then u y else a x y.
    Lemma house_dots_ok : house_dots (tab2 n n au) (ztab n e) i (i - 1) h =
      OK (tab2 n n (fun x y => if (y =? i) && (x <? i) then (u x / h)%R else au x y),
          ztab n (fun x => if x <? i then p x else e x), rsum i (fun j => p j * u j)%R).
    Proof.
      unfold house_dots. replace (i - 1 + 1) with i by lia.
      set (S := fun j => (tab2 n n (fun x y => if (y =? i) && (x <? j) then (u x / h)%R else au x y),
          ztab n (fun x => if x <? j then p x else e x), rsum j (fun j => p j * u j)%R)).
      replace (tab2 n n au, ztab n e, 0%R) with (S 0).
      2:{ unfold S. rewrite rsum_0 by lia. f_equal. f_equal.
        - apply tab2_ext. intros x y Hx Hy. zdec; reflexivity.
        - apply ztab_ext. intros. zdec; reflexivity. }
      apply (for_up_path S); [lia|]. intros j Hj. unfold S. cbv beta iota. rewrite mget_tab by lia. cbn [bind]. rewrite mput_tab by lia. cbn [bind].
      rewrite (for_up_rsum0 (j + 1) (fun k => low a j k * u k)%R); [|lia|].
      2:{ intros k s Hk. rewrite !mget_tab by lia. cbn [bind]. f_equal. f_equal. unfold set2, au, low. zdec; reflexivity. }
      cbn [bind]. rewrite (for_up_rsum (j + 1) i (fun k => low a j k * u k)%R); [|lia|lia|].
      2:{ intros k s Hk. rewrite !mget_tab by lia. cbn [bind]. f_equal. f_equal. unfold set2, au, low. zdec; reflexivity. }
      cbn [bind]. rewrite aset_tab by lia. cbn [bind]. rewrite aget_tab by lia. cbn [bind]. rewrite mget_tab by lia. cbn [bind].
      assert (E : ((rsum (j + 1) (fun k => low a j k * u k) + (rsum i (fun k => low a j k * u k) - rsum (j + 1) (fun k => low a j k * u k))) / h = p j)%R).
      { unfold p. f_equal. ring. }
      rewrite E, (rsum_S j) by lia. f_equal. f_equal; [f_equal|].
      - apply tab2_ext. intros x y Hx Hy. unfold set2, au. zdec; subst; try reflexivity.
      - apply ztab_ext. intros x Hx. unfold set1. zdec; subst; try reflexivity.
      - f_equal. unfold set1, set2, au. rewrite Z.eqb_refl. zdec. ring.
    Qed.

    Variable hh : R.
    Let q (j : Z) : R := (p j - hh * u j)%R.
    Let av (x y : Z) : R := if (y =? i) && (x <? i) then (u x / h)%R else au x y.
    Definition reduced (x y : Z) : R :=
      if (x <? i) && (y <=? x) then (a x y - (u x * q y + q x * u y))%R
      else if (x =? i) && (y <? i) then u y
      else if (y =? i) && (x <? i) then (u x / h)%R else a x y.
    Lemma house_update_ok : house_update (tab2 n n av) (ztab n (fun x => if x <? i then p x else e x)) i (i - 1) hh =
      OK (tab2 n n reduced, ztab n (fun x => if x <? i then q x else e x)).
    Proof.
      unfold house_update. replace (i - 1 + 1) with i by lia.
      set (S := fun j => (tab2 n n (fun x y => if (x <? j) && (y <=? x) then (a x y - (u x * q y + q x * u y))%R else av x y),
          ztab n (fun x => if x <? j then q x else if x <? i then p x else e x))).
      replace (tab2 n n av, ztab n (fun x => if x <? i then p x else e x)) with (S 0).
      2:{ unfold S. f_equal.
        - apply tab2_ext. intros x y Hx Hy. zdec; reflexivity.
        - apply ztab_ext. intros. zdec; reflexivity. }
      replace (tab2 n n reduced, ztab n (fun x => if x <? i then q x else e x)) with (S i).
      2:{ unfold S, reduced, av, au. f_equal.
        - apply tab2_ext. intros x y Hx Hy. zdec; reflexivity.
        - apply ztab_ext. intros. zdec; reflexivity. }
      apply (for_up_path S); [lia|]. intros j Hj. unfold S. cbv beta iota. rewrite mget_tab by lia. cbn [bind]. rewrite aget_tab by lia. cbn [bind].
      rewrite aset_tab by lia. cbn [bind].
      assert (Uj : (if (i <? j) && (j <=? i) then (a i j - (u i * q j + q i * u j))%R else av i j) = u j) by (unfold av, au; zdec; reflexivity).
      rewrite Uj. rewrite Z.ltb_irrefl, (proj2 (Z.ltb_lt j i)) by lia. fold (q j).
      set (T := fun k => tab2 n n (fun x y => if ((x <? j) && (y <=? x)) || ((x =? j) && (y <? k)) then (a x y - (u x * q y + q x * u y))%R else av x y)).
      replace (tab2 n n (fun x y => if (x <? j) && (y <=? x) then (a x y - (u x * q y + q x * u y))%R else av x y)) with (T 0).
      2:{ apply tab2_ext. intros x y Hx Hy. zdec; reflexivity. }
      rewrite (for_up_path T); [|lia|].
      - cbn [bind]. f_equal. f_equal.
        + apply tab2_ext. intros x y Hx Hy. zdec; reflexivity.
        + apply ztab_ext. intros x Hx. unfold set1. zdec; subst; reflexivity.
      - intros k Hk. unfold T. rewrite mget_tab by lia. cbn [bind]. rewrite aget_tab by lia. cbn [bind]. rewrite mget_tab by lia. cbn [bind].
        rewrite mput_tab by lia. f_equal. apply tab2_ext. intros x y Hx Hy. unfold set2, set1.
        assert (Uk : (if (i <? j) && (k <=? i) || (i =? j) && (k <? k) then (a i k - (u i * q k + q i * u k))%R else av i k) = u k)
          by (unfold av, au; zdec; reflexivity).
        assert (Aj : (if (j <? j) && (k <=? j) || (j =? j) && (k <? k) then (a j k - (u j * q k + q j * u k))%R else av j k) = a j k)
          by (unfold av, au; zdec; reflexivity).
        assert (Ek : (if k =? j then q j else if k <? j then q k else if k <? i then p k else e k) = q k) by (zdec; subst; reflexivity).
        rewrite Uk, Aj, Ek. zdec; subst; try reflexivity.
    Qed.
  End Step.

  Lemma refl_ext u v h k j : u k = v k -> u j = v j -> refl u h k j = refl v h k j.
  Proof. intros E1 E2. unfold refl. now rewrite E1, E2. Qed.

  (** Row, column and coupling r hold the reflection that turns M (size r+1) into M' (size r). *)
  Definition red (r : Z) (a : Z -> Z -> R) (d e : Z -> R) (M M' : Z -> Z -> R) : Prop :=
    M r r = a r r /\
    (d r <> 0%R -> rsum r (fun k => a r k * a r k)%R = (2 * d r)%R /\ forall k, 0 <= k < r -> a k r = (a r k / d r)%R) /\
    (forall k j, 0 <= k < r -> 0 <= j < r ->
      rsum r (fun x => M k x * refl (a r) (d r) x j)%R = rsum r (fun x => refl (a r) (d r) k x * M' x j)%R) /\
    (forall k, 0 <= k < r -> M r k = M k r /\ M k r = (e r * refl (a r) (d r) k (r - 1))%R).

  Lemma red_local r a d e a' d' e' M M' : red r a d e M M' ->
    (forall x y, r <= x \/ r <= y -> a' x y = a x y) -> d' r = d r -> e' r = e r -> red r a' d' e' M M'.
  Proof.
    intros (R1 & R2 & R3 & R4) Ea Ed Ee. unfold red. rewrite Ed, Ee.
    assert (Er : forall h k j, refl (a' r) h k j = refl (a r) h k j) by (intros; apply refl_ext; apply Ea; lia).
    splits.
    - rewrite R1. symmetry. apply Ea. lia.
    - intros N. destruct (R2 N) as (S & C). split.
      + rewrite <- S. apply rsum_ext. intros k Hk. now rewrite !Ea by lia.
      + intros k Hk. rewrite !Ea by lia. auto.
    - intros k j Hk Hj. rewrite (rsum_ext r _ (fun x => M k x * refl (a r) (d r) x j)%R) by (intros; now rewrite Er).
      rewrite R3 by auto. apply rsum_ext. intros; now rewrite Er.
    - intros k Hk. rewrite Er. auto.
  Qed.

  Lemma tred2_reduce_ok i a d e : 1 <= i < n -> exists a' d' e',
    tred2_reduce i (tab2 n n a, ztab n d, ztab n e) = OK (tab2 n n a', ztab n d', ztab n e') /\
    (forall x y, i < x \/ i < y -> a' x y = a x y) /\ (forall r, r <> i -> d' r = d r) /\ (forall r, i < r -> e' r = e r) /\
    red i a' d' e' (low a) (low a').
  Proof.
    intros Hi. unfold tred2_reduce.
    assert (Trivial : (forall k, 0 <= k < i -> a i k = (a i (i - 1)%Z * delta k (i - 1))%R) ->
      red i a (set1 d i 0%R) (set1 e i (a i (i - 1))) (low a) (low a)).
    { intros Z0. unfold red, set1. rewrite Z.eqb_refl. splits.
      - unfold low. now rewrite Z.leb_refl.
      - congruence.
      - intros k j Hk Hj. rewrite refl_dot_0 by auto.
        rewrite (rsum_ext i _ (fun x => delta x j * low a k x)%R) by (intros; rewrite refl_0; ring). now rewrite rsum_delta by auto.
      - intros k Hk. rewrite refl_0. split; [apply low_sym|]. unfold low. zdec. auto. }
    destruct (Z.ltb_spec 0 (i - 1)) as [L|L].
    2:{ rewrite mget_tab by lia. cbn [bind]. rewrite !aset_tab by lia. cbn [bind]. do 3 eexists. split; [reflexivity|]. splits; auto.
        - intros r Hr. unfold set1. zdec; reflexivity.
        - intros r Hr. unfold set1. zdec; reflexivity.
        - apply Trivial. intros k Hk. replace k with (i - 1) by lia. rewrite delta_eq. ring. }
    rewrite row_scale_ok by lia. cbn [bind]. set (scale := rsum i (fun k => Rabs (a i k))).
    destruct (Reqb scale 0) eqn:Es.
    { apply Reqb_true in Es. rewrite mget_tab by lia. cbn [bind]. rewrite !aset_tab by lia. cbn [bind]. do 3 eexists. split; [reflexivity|]. splits; auto.
        - intros r Hr. unfold set1. zdec; reflexivity.
        - intros r Hr. unfold set1. zdec; reflexivity.
        - assert (Z0 : forall k, 0 <= k < i -> a i k = 0%R).
          { intros k Hk. pose proof (rsum_term i (fun k => Rabs (a i k)) k) as T. cbv beta in T. fold scale in T. rewrite Es in T.
            assert (T' : (Rabs (a i k) <= 0)%R) by (apply T; auto; intros; apply Rabs_pos). pose proof (Rabs_pos (a i k)).
            destruct (Req_dec (a i k) 0) as [E|N]; auto. apply Rabs_pos_lt in N. lra. }
          apply Trivial. intros k Hk. rewrite !Z0 by lia. ring. }
    apply Reqb_false in Es. rewrite scale_row_ok by lia. cbn [bind]. set (h0 := rsum i (fun k => a i k / scale * (a i k / scale))%R).
    rewrite mget_tab by lia. cbn [bind]. rewrite Z.eqb_refl, (proj2 (Z.ltb_lt (i - 1) i)) by lia. cbn [andb].
    set (f := (a i (i - 1)%Z / scale)%R). set (g := if Rltb 0 f then (- sqrt h0)%R else sqrt h0).
    rewrite aset_tab by lia. cbn [bind]. rewrite mput_tab by lia. cbn [bind].
    set (h := (h0 - f * g)%R). set (u := fun y => (a i y / scale - g * delta y (i - 1))%R).
    assert (Hh0 : (0 < h0)%R).
    { assert (P : forall k, 0 <= k < i -> (0 <= a i k / scale * (a i k / scale))%R) by (intros; apply Rle_0_sqr).
      pose proof (rsum_nonneg i _ P) as P0. fold h0 in P0. destruct P0 as [P0|P0]; auto. exfalso. apply Es.
      apply rsum_zero. intros k Hk. pose proof (rsum_term i _ k P Hk) as T. fold h0 in T. cbv beta in T. rewrite <- P0 in T.
      assert (a i k / scale = 0)%R by (apply Rsqr_0_uniq; unfold Rsqr; apply Rle_antisym; auto).
      replace (a i k) with (a i k / scale * scale)%R by (field; auto). rewrite H, Rmult_0_l. apply Rabs_R0. }
    assert (Hg : (g * g = h0)%R).
    { unfold g. destruct (Rltb 0 f); rewrite ?Rmult_opp_opp; apply sqrt_sqrt; lra. }
    assert (Hs : (f * g <= 0)%R).
    { pose proof (sqrt_pos h0). unfold g. destruct (Rltb_spec 0 f); nra. }
    destruct (house_vector i (a i) u scale g h0 h ltac:(lia) Es eq_refl Hh0 Hg Hs eq_refl ltac:(intros; reflexivity)) as (Hh & UU & Bk).
    match goal with |- context[house_dots ?m _ _ _ _] => replace m with (tab2 n n (fun x y => if (x =? i) && (y <? i) then u y else a x y)) end.
    2:{ apply tab2_ext. intros x y Hx Hy. unfold set2, u, f. zdec; subst; rewrite ?delta_eq, ?delta_ne by lia; try reflexivity; ring. }
    rewrite house_dots_ok by lia. cbn [bind].
    rewrite house_update_ok by lia. cbn [bind]. rewrite aset_tab by lia. cbn [bind]. do 3 eexists. split; [reflexivity|].
    set (hh := (rsum i (fun j => rsum i (fun k => low a j k * u k) / h * u j) / (h + h))%R). splits.
    - intros x y Hx. unfold reduced. zdec; reflexivity.
    - intros r Hr. unfold set1. zdec; reflexivity.
    - intros r Hr. unfold set1. zdec; reflexivity.
    - assert (Er : forall k j, 0 <= k < i -> 0 <= j < i -> refl (reduced i a u h hh i) h k j = refl u h k j).
      { intros. apply refl_ext; unfold reduced; zdec; reflexivity. }
      unfold red. replace (set1 d i h i) with h by (unfold set1; now rewrite Z.eqb_refl).
      match goal with |- context[(?E * refl _ _ _ _)%R] => replace E with (scale * g)%R by (unfold set1; zdec; reflexivity) end. splits.
      + unfold low, reduced. zdec; reflexivity.
      + intros _. split.
        * rewrite <- UU. apply rsum_ext. intros k Hk. unfold reduced. zdec; reflexivity.
        * intros k Hk. unfold reduced. zdec; reflexivity.
      + intros k j Hk Hj.
        rewrite (rsum_ext i _ (fun x => low a k x * refl u h x j)%R) by (intros; now rewrite Er).
        rewrite (rsum_ext i (fun x => refl (reduced i a u h hh i) h k x * _)%R (fun x => refl u h k x * low (reduced i a u h hh) x j)%R) by (intros; now rewrite Er).
        apply (house_similar i (low a) u h (fun k => rsum i (fun j => low a k j * u j) / h)%R
          (fun k => rsum i (fun j => low a k j * u j) / h - hh * u k)%R hh); auto; try lra.
        * intros. apply low_sym.
        * unfold hh. f_equal. ring.
        * intros x y Hx Hy. destruct (Z.le_gt_cases y x) as [Le|Gt].
          -- rewrite !(low_ge _ x y) by lia. unfold reduced. zdec. ring.
          -- rewrite !(low_lt _ x y) by lia. unfold reduced. zdec. ring.
      + intros k Hk. split; [apply low_sym|]. rewrite Er by lia. rewrite <- Bk by auto. unfold low. zdec. reflexivity.
  Qed.

  (** *** Second loop *)
  Lemma tred2_collect_ok i a d : 0 <= i < n -> (d i <> 0%R -> forall k, 0 <= k < i -> a k i = (a i k / d i)%R) ->
    tred2_collect i (tab2 n n a, ztab n d) =
    OK (tab2 n n (fun x y => if (x <=? i) && (y <=? i) then border i (mul i (refl (a i) (d i)) a) x y else a x y),
        ztab n (set1 d i (a i i))).
  Proof.
    intros Hi C. unfold tred2_collect. rewrite aget_tab by lia. cbn [bind]. replace (i - 1 + 1) with i by lia.
    set (b := fun x y => if (x <? i) && (y <? i) then mul i (refl (a i) (d i)) a x y else a x y).
    match goal with |- bind ?m _ = _ => assert (E : m = OK (tab2 n n b)) end.
    { destruct (Reqb (d i) 0) eqn:Ed; cbn [negb].
      - apply Reqb_true in Ed. f_equal. apply tab2_ext. intros x y Hx Hy. unfold b, mul. rewrite Ed. zdec; auto.
        now rewrite (refl_dot_0 i (a i) (fun k => a k y)) by lia.
      - apply Reqb_false in Ed. specialize (C Ed).
        set (S := fun j => tab2 n n (fun x y => if (x <? i) && (y <? j) then mul i (refl (a i) (d i)) a x y else a x y)).
        replace (tab2 n n a) with (S 0) by (apply tab2_ext; intros; zdec; reflexivity).
        rewrite (for_up_path S); [reflexivity|lia|]. intros j Hj.
        rewrite (for_up_rsum0 i (fun k => a i k * a k j)%R); [|lia|].
        2:{ intros k s Hk. unfold S. rewrite !mget_tab by lia. cbn [bind]. f_equal. f_equal. zdec; reflexivity. }
        cbn [bind]. set (g := rsum i (fun k => a i k * a k j)%R).
        set (T := fun k => tab2 n n (fun x y => if (x <? i) && ((y <? j) || ((y =? j) && (x <? k))) then mul i (refl (a i) (d i)) a x y else a x y)).
        replace (S j) with (T 0) by (apply tab2_ext; intros; zdec; reflexivity).
        rewrite (for_up_path T); [|lia|].
        + f_equal. apply tab2_ext. intros x y Hx Hy. zdec; reflexivity.
        + intros k Hk. unfold T. rewrite !mget_tab by lia. cbn [bind]. rewrite mput_tab by lia. f_equal. apply tab2_ext. intros x y Hx Hy.
          assert (V : (a k j - g * a k i = mul i (refl (a i) (d i)) a k j)%R).
          { unfold mul. rewrite (refl_dot i (a i) (d i) (fun x => a x j)) by auto. fold g. rewrite C by auto. ring. }
          unfold set2. zdec; subst; try reflexivity; rewrite <- V; reflexivity. }
    rewrite E. cbn [bind]. rewrite mget_tab by lia. cbn [bind]. rewrite aset_tab by lia. cbn [bind]. rewrite mput_tab by lia. cbn [bind].
    set (S := fun j => tab2 n n (fun x y => if ((x =? i) && (y <? j)) || ((y =? i) && (x <? j)) then 0%R else set2 b i i 1%R x y)).
    replace (tab2 n n (set2 b i i 1%R)) with (S 0) by (apply tab2_ext; intros; zdec; reflexivity).
    rewrite (for_up_path S); [|lia|].
    - cbn [bind]. replace (b i i) with (a i i) by (unfold b; zdec; reflexivity). f_equal. f_equal. apply tab2_ext. intros x y Hx Hy.
      unfold set2, b, border, delta. zdec; subst; try reflexivity; try lia.
    - intros j Hj. unfold S. rewrite mput_tab by lia. cbn [bind]. rewrite mput_tab by lia. f_equal. apply tab2_ext. intros x y Hx Hy.
      unfold set2. zdec; subst; reflexivity.
  Qed.

  (** Couplings inside the leading block of size i. *)
  Definition cpl (i : Z) (e : Z -> R) (j : Z) : R := if (0 <=? j) && (j <? i - 1) then e (j + 1)%Z else 0%R.
  Definition tri_ok (i : Z) (M a : Z -> Z -> R) (d e : Z -> R) : Prop :=
    orthonormal i a /\ (forall y, 0 <= y < i -> a (i - 1) y = delta (i - 1) y) /\ (forall x, 0 <= x < i -> a x (i - 1) = delta x (i - 1)) /\
    forall k b, 0 <= k < i -> 0 <= b < i -> rsum i (fun j => M k j * a j b)%R = tri_row (cpl i e) d (a k) b.

  Lemma tri_row_comb m c w cp d (z : Z -> Z -> R) b : w = (fun y => rsum m (fun x => c x * z x y)%R) ->
    rsum m (fun x => c x * tri_row cp d (z x) b)%R = tri_row cp d w b.
  Proof.
    intros ->. unfold tri_row. rewrite <- !rsum_scal, <- !rsum_plus. apply rsum_ext. intros; ring.
  Qed.

  Lemma tri_step i M M' a d e a' d' : 0 <= i -> red i a d e M M' -> tri_ok i M' a d e ->
    (forall x y, 0 <= x <= i -> 0 <= y <= i -> a' x y = border i (mul i (refl (a i) (d i)) a) x y) ->
    (forall j, 0 <= j < i -> d' j = d j) -> d' i = a i i ->
    tri_ok (i + 1) M a' d' e.
  Proof.
    intros Hi (R1 & R2 & R3 & R4) (O & Lr & Lc & Tr) Ea Ed Edi.
    set (P := refl (a i) (d i)) in *.
    assert (OP : orthonormal i P) by (apply refl_ortho; intros N; apply (proj1 (R2 N))).
    assert (OZ : orthonormal (i + 1) (border i (mul i P a))) by (apply ortho_border; [auto|]; apply ortho_mul; auto).
    set (Zz := border i (mul i P a)) in *.
    assert (Zin : forall k b, 0 <= k < i -> 0 <= b < i -> Zz k b = mul i P a k b) by (intros; unfold Zz; apply border_in; lia).
    assert (Zr : forall k, Zz k i = delta k i) by (intros; apply border_r).
    assert (Zl : forall k, Zz i k = delta i k) by (intros; apply border_l).
    unfold tri_ok. replace (i + 1 - 1) with i by lia. splits.
    - destruct OZ as (C1 & C2). split.
      + intros x y Hx Hy. rewrite <- C1 by auto. apply rsum_ext. intros. now rewrite !Ea by lia.
      + intros x y Hx Hy. rewrite <- C2 by auto. apply rsum_ext. intros. now rewrite !Ea by lia.
    - intros y Hy. rewrite Ea by lia. apply Zl.
    - intros x Hx. rewrite Ea by lia. apply Zr.
    - intros k b Hk Hb. rewrite (rsum_ext (i + 1) _ (fun j => M k j * Zz j b)%R) by (intros; now rewrite Ea by lia).
      rewrite rsum_S by lia. rewrite Zl.
      assert (TR : tri_row (cpl (i + 1) e) d' (a' k) b = tri_row (cpl (i + 1) e) d' (Zz k) b).
      { unfold tri_row. f_equal; [f_equal|].
        - destruct (Z.eq_dec b 0) as [->|N]; [unfold cpl; cbn; ring|]. now rewrite Ea by lia.
        - now rewrite Ea by lia.
        - destruct (Z.eq_dec b i) as [->|N]; [unfold cpl; zdec; ring|]. now rewrite Ea by lia. }
      rewrite TR. clear TR.
      destruct (Z.eq_dec b i) as [->|Nb].
      + rewrite rsum_zero by (intros j Hj; rewrite Zr, delta_ne by lia; ring). rewrite delta_eq.
        unfold tri_row. rewrite Zr, Edi. replace (cpl (i + 1) e i) with 0%R by (unfold cpl; zdec; reflexivity).
        destruct (Z.eq_dec k i) as [->|Nk].
        * rewrite R1, delta_eq, Zl, delta_ne by lia. ring.
        * destruct (R4 k ltac:(lia)) as (_ & ->). rewrite (delta_ne k i) by lia. rewrite Zin by lia.
          replace (cpl (i + 1) e (i - 1)) with (e i) by (unfold cpl; zdec; f_equal; lia).
          unfold mul. rewrite (rsum_ext i _ (fun j => delta j (i - 1) * P k j)%R) by (intros; rewrite Lc by lia; ring).
          rewrite rsum_delta by lia. ring.
      + rewrite (delta_ne i b) by lia. rewrite Rmult_0_r, Rplus_0_r.
        rewrite (rsum_ext i _ (fun j => M k j * mul i P a j b)%R) by (intros; now rewrite Zin by lia).
        unfold mul. rewrite <- (mul_assoc i i (fun k j => M k j) (fun j x => P j x) (fun x b => a x b) k b).
        destruct (Z.eq_dec k i) as [->|Nk].
        * rewrite (rsum_ext i _ (fun x => delta x (i - 1) * (e i * a x b))%R).
          2:{ intros x Hx. rewrite (rsum_ext i _ (fun j => e i * (P j x * P j (i - 1)%Z))%R).
              2:{ intros j Hj. destruct (R4 j Hj) as (E1 & E2). rewrite E1, E2. ring. }
              rewrite rsum_scal. destruct OP as (OPc & _). rewrite OPc by lia. ring. }
          rewrite rsum_delta by lia. rewrite Lr by lia. unfold tri_row. rewrite !Zl, (delta_ne i b), (delta_ne i (b - 1)) by lia.
          destruct (Z.eq_dec b (i - 1)) as [->|Nb1].
          -- replace (i - 1 + 1) with i by lia. rewrite !delta_eq. replace (cpl (i + 1) e (i - 1)) with (e i) by (unfold cpl; zdec; f_equal; lia). ring.
          -- rewrite !delta_ne by lia. ring.
        * rewrite (rsum_ext i _ (fun x => rsum i (fun y => P k y * M' y x) * a x b)%R) by (intros x Hx; rewrite R3 by lia; reflexivity).
          rewrite (mul_assoc i i P M' a k b).
          rewrite (rsum_ext i _ (fun y => P k y * tri_row (cpl i e) d (a y) b)%R) by (intros y Hy; rewrite Tr by lia; reflexivity).
          rewrite (tri_row_comb i (P k) (fun y => mul i P a k y)) by reflexivity.
          unfold tri_row. f_equal; [f_equal|].
          -- destruct (Z.eq_dec b 0) as [->|N0]; [unfold cpl; cbn; ring|]. rewrite Zin by lia. f_equal. unfold cpl. zdec; reflexivity.
          -- rewrite Ed, Zin by lia. reflexivity.
          -- destruct (Z.eq_dec b (i - 1)) as [->|N1].
             ++ replace (i - 1 + 1) with i by lia. rewrite Zr, delta_ne by lia. replace (cpl i e (i - 1)) with 0%R by (unfold cpl; zdec; reflexivity). ring.
             ++ rewrite Zin by lia. f_equal. unfold cpl. zdec; reflexivity.
  Qed.

  Theorem tred2_ok A d0 e0 : 0 < n -> (forall x y, A x y = A y x) -> exists z d e,
    tred2 (tab2 n n A) n (ztab n d0) (ztab n e0) = OK (tab2 n n z, ztab n d, ztab n e) /\
    orthonormal n z /\
    forall k b, 0 <= k < n -> 0 <= b < n -> rsum n (fun j => A k j * z j b)%R = tri_row (cpl n e) d (z k) b.
  Proof.
    intros Hn Sym. unfold tred2.
    destruct (for_down_inv (fun i st => exists a d e M, st = (tab2 n n a, ztab n d, ztab n e) /\ M (n - 1) = low A /\ M i = low a /\
      forall r, i < r < n -> red r a d e (M r) (M (r - 1))) (n - 1) 1 tred2_reduce (tab2 n n A, ztab n d0, ztab n e0))
      as (st & E & a & d & e & M & -> & M1 & M0 & Rd).
    - lia.
    - exists A, d0, e0, (fun _ => low A). splits; auto. lia.
    - intros i st Hi (a & d & e & M & -> & M1 & M0 & Rd).
      destruct (tred2_reduce_ok i a d e ltac:(lia)) as (a' & d' & e' & E & Ua & Ud & Ue & R). eexists. split; [exact E|].
      exists a', d', e', (fun r => if r <? i then low a' else M r). splits; auto.
      + rewrite (proj2 (Z.ltb_ge (n - 1) i)) by lia. auto.
      + now rewrite (proj2 (Z.ltb_lt (i - 1) i)) by lia.
      + intros r Hr. rewrite (proj2 (Z.ltb_ge r i)) by lia. destruct (Z.eq_dec r i) as [->|N].
        * rewrite (proj2 (Z.ltb_lt (i - 1) i)) by lia. rewrite M0. exact R.
        * rewrite (proj2 (Z.ltb_ge (r - 1) i)) by lia. apply (red_local r a d e); [apply Rd; lia| |apply Ud; lia|apply Ue; lia].
          intros x y Hxy. apply Ua. lia.
    - rewrite E. cbn [bind]. cbv beta iota. rewrite !aset_tab by lia. cbn [bind].
      set (d1 := set1 d 0 0%R). set (e1 := set1 e 0 0%R).
      assert (Rd1 : forall r, 0 <= r < n -> red r a d1 e1 (M r) (M (r - 1))).
      { intros r Hr. destruct (Z.eq_dec r 0) as [->|N].
        - unfold red. replace (1 - 1) with 0 in M0 by lia. rewrite M0. splits; try lia.
          + unfold low. now rewrite Z.leb_refl.
          + unfold d1, set1. cbn. congruence.
        - apply (red_local r a d e); auto; [apply Rd; lia| |]; unfold d1, e1, set1; zdec; reflexivity. }
      destruct (for_up_inv (fun i st => exists z d, st = (tab2 n n z, ztab n d) /\ (forall x y, i <= x \/ i <= y -> z x y = a x y) /\
        (forall r, i <= r -> d r = d1 r) /\ tri_ok i (M (i - 1)) z d e1) 0 n tred2_collect (tab2 n n a, ztab n d1))
        as (st & E2 & z & d2 & -> & _ & _ & O & _ & _ & T).
      + lia.
      + exists a, d1. splits; auto. unfold tri_ok, orthonormal. splits; intros; lia.
      + intros i st Hi (z & d2 & -> & Uz & Ud & T).
        assert (R : red i z d2 e1 (M i) (M (i - 1))) by (apply (red_local i a d1 e1); auto; apply Ud; lia).
        rewrite tred2_collect_ok; [|auto|intros N; apply (proj1 (proj2 R) N)]. eexists. split; [reflexivity|].
        do 2 eexists. split; [reflexivity|]. splits.
        * intros x y Hxy. zdec; apply Uz; lia.
        * intros r Hr. unfold set1. zdec. apply Ud. lia.
        * replace (i + 1 - 1) with i by lia. eapply (tri_step i (M i) (M (i - 1)) z d2 e1); auto; try lia.
          -- intros x y Hx Hy. zdec. reflexivity.
          -- intros j Hj. unfold set1. zdec. reflexivity.
          -- unfold set1. now rewrite Z.eqb_refl.
      + rewrite E2. cbn [bind]. exists z, d2, e1. splits; auto. intros k b Hk Hb. rewrite <- T by auto. rewrite M1.
        apply rsum_ext. intros j Hj. unfold low. zdec; [reflexivity|]. now rewrite Sym.
  Qed.
End Tred2.
