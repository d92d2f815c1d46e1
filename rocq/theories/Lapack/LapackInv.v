(** The inversion from the factors: dtrti2_, dtrtri_ and dgetri_. *)
From Coq Require Import List ZArith Reals Lia Lra Bool.
From Verif.Base Require Import Imp Sums RealOps Loops Matrix Tables.
From Verif.Lapack Require Import LapackModel LapackBlas LapackLu.
Import ListNotations.
Open Scope Z_scope.

Definition kron (i j : Z) : R := if i =? j then 1%R else 0%R.

Lemma rsum_upto m j f : 0 <= j < m -> (forall k, j < k < m -> f k = 0%R) -> rsum m f = (rsum j f + f j)%R.
Proof.
  intros Hj H. replace m with (j + 1 + (m - (j + 1))) at 1 by lia. rewrite rsum_split, rsum_S by lia.
  rewrite (rsum_zero (m - (j + 1))); [ring|]. intros k Hk. apply H. lia.
Qed.

Section Inv.
  Variable n : Z.
  Hypothesis Hn : 0 < n.

  (** The first j columns of the block at (o, o) inverted in place. *)
  Definition inverted (F G : Z -> Z -> R) (o j : Z) : Prop :=
    (forall i c, 0 <= i < n -> 0 <= c < n -> i < o \/ c < i \/ c < o \/ o + j <= c -> G i c = F i c) /\
    (forall r c, o <= r < o + j -> o <= c < o + j ->
       rsum j (fun k => up G r (o + k) * up F (o + k) c)%R = kron r c).

  Lemma dtrti2_ok F m o : 0 <= o -> 0 <= m -> o + m <= n -> (forall c, o <= c < o + m -> F c c <> 0%R) ->
    exists G, dtrti2 n m o (cmat n n F) = OK (cmat n n G) /\ inverted F G o m.
  Proof.
    intros Ho Hm Hon Hnz. unfold dtrti2.
    match goal with |- exists G, for_up 0 m ?f ?s = _ /\ _ =>
      destruct (for_up_inv (fun j a => exists G, a = cmat n n G /\ inverted F G o j) 0 m f s) as (a & E & G & -> & I);
        [lia| | |exists G; auto] end.
    - exists F. split; auto. split; auto. lia.
    - intros j a Hj (G & -> & I1 & I2). cells.
      assert (Gjj : G (o + j) (o + j) = F (o + j) (o + j)) by (apply I1; lia).
      rewrite Gjj. unfold recip. destruct (Reqb (F (o + j) (o + j)) 0) eqn:Z0; [apply Reqb_true in Z0; apply Hnz in Z0; lia || tauto|].
      specialize (Hnz (o + j) ltac:(lia)). set (d := F (o + j) (o + j)) in *. cbn [bind]. cells.
      rewrite dtrmv_ok by lia. cbn [bind]. rewrite dscal_ok by lia. eexists; split; [reflexivity|].
      set (t := (1 / d)%R).
      set (S r := rsum j (fun p => (up G r (o + p) * F (o + p)%Z (o + j)%Z)%R)).
      exists (fun i c => if (c =? o + j) && inr o j i then (- t * S i)%R else set2 G (o + j) (o + j) t i c). split.
      { apply cmat_ext; auto. intros i c Hi Hc. ifs; auto; try lia. f_equal. unfold upmul, S. apply rsum_ext. intros p Hp.
        unfold up. replace (i - o <=? p) with (i <=? o + p) by (destruct (Z.leb_spec i (o + p)), (Z.leb_spec (i - o) p); auto; lia).
        destruct (i <=? o + p); [|ring]. unfold set2. ifs; try lia. replace (o + (i - o)) with i by lia. f_equal. apply I1; lia. }
      set (G' := fun i c => _). split.
      + intros i c Hi Hc H. unfold G', set2. ifs; try lia; apply I1; lia.
      + assert (G'old : forall r p, 0 <= p < j -> up G' r (o + p) = up G r (o + p)).
        { intros r p Hp. unfold up, G', set2. ifs; auto; lia. }
        intros r c Hr Hc. destruct (Z.eq_dec c (o + j)) as [->|Nc].
        * rewrite rsum_S by lia. rewrite (rsum_ext j _ (fun p => (up G r (o + p) * F (o + p)%Z (o + j)%Z)%R)).
          2: { intros p Hp. rewrite G'old by lia. f_equal. unfold up. destruct (Z.leb_spec (o + p) (o + j)); auto; lia. }
          fold (S r). unfold up. rewrite Z.leb_refl. destruct (Z.leb_spec r (o + j)); [|lia]. fold d.
          unfold G', set2, kron. ifs; try lia.
          -- subst r. unfold S. rewrite rsum_zero; [unfold t; field; auto|].
             intros p Hp. unfold up. destruct (Z.leb_spec (o + j) (o + p)); [lia|]. ring.
          -- unfold t. field. auto.
        * rewrite rsum_S by lia. rewrite (rsum_ext j _ (fun p => (up G r (o + p) * up F (o + p)%Z c)%R)).
          2: { intros p Hp. now rewrite G'old by lia. }
          replace (up F (o + j) c) with 0%R by (unfold up; destruct (Z.leb_spec (o + j) c); auto; lia).
          rewrite Rmult_0_r, Rplus_0_r. destruct (Z.eq_dec r (o + j)) as [->|Nr]; [|apply I2; lia].
          rewrite rsum_zero; [unfold kron; ifs; auto; lia|].
          intros p Hp. unfold up. destruct (Z.leb_spec (o + j) (o + p)); [lia|]. ring.
  Qed.

  Lemma first_zero_ok F : exists info, first_zero n (cmat n n F) = OK info /\ 0 <= info /\
    (info = 0 <-> forall c, 0 <= c < n -> F c c <> 0%R).
  Proof.
    unfold first_zero.
    match goal with |- exists info, for_up 0 n ?f ?s = _ /\ _ =>
      destruct (for_up_inv (fun j info => 0 <= info /\ (info = 0 <-> forall c, 0 <= c < j -> F c c <> 0%R)) 0 n f s)
        as (info & E & H); [lia| | |exists info; auto] end.
    - split; [lia|]. split; [lia|auto].
    - intros j info Hj (H0 & H). destruct (Z.eqb_spec info 0) as [->|N].
      + cells. eexists; split; [reflexivity|]. destruct (Reqb (F j j) 0) eqn:Z0.
        * apply Reqb_true in Z0. split; [lia|]. split; [lia|]. intros C. exfalso. apply (C j); auto. lia.
        * split; [lia|]. split; auto. intros _ c Hc. destruct (Z.eq_dec c j) as [->|].
          -- intros C. apply Reqb_true in C. congruence. -- apply (proj1 H); auto. lia.
      + eexists; split; [reflexivity|]. split; [lia|]. split; [lia|]. intros C. exfalso. apply N. apply H. intros c Hc. apply C. lia.
  Qed.

  Lemma inverted_step F G1 G o jb : 0 <= o -> 0 < jb -> o + jb <= n -> inverted F G1 0 o ->
    (forall c, o <= c < o + jb -> F c c <> 0%R) ->
    forall X,
    (forall r c, 0 <= r < o -> 0 <= c < jb -> rsum (c + 1) (fun k => X r k * F (o + k)%Z (o + c)%Z)%R
       = (- rsum o (fun p => up G1 r p * F p (o + c)%Z))%R) ->
    inverted (fun i j => if inr 0 o i && inr o jb j then X i (j - o) else G1 i j) G o jb ->
    inverted F G 0 (o + jb).
  Proof.
    intros Ho Hjb Hon (I1 & I2) Hnz X HX (J1 & J2).
    assert (GX : forall r k, 0 <= r < o -> 0 <= k < jb -> G r (o + k) = X r k).
    { intros r k Hr Hk. rewrite J1 by lia. ifs; try lia; f_equal; lia. }
    assert (Gold : forall r k, 0 <= r < n -> 0 <= k < o -> G r k = G1 r k).
    { intros r k Hr Hk. rewrite J1 by lia. ifs; try lia; auto. }
    split.
    - intros i c Hi Hc H. rewrite J1 by lia. ifs; try lia; apply I1; lia.
    - intros r c Hr Hc. rewrite rsum_split by lia. rewrite !Z.add_0_l in *.
      destruct (Z_lt_ge_dec r o) as [Cr|Cr].
      + destruct (Z_lt_ge_dec c o) as [Cc|Cc].
        * rewrite (rsum_zero jb).
          2: { intros k Hk. unfold up at 2. destruct (Z.leb_spec (0 + (o + k)) c); [lia|ring]. }
          rewrite Rplus_0_r. rewrite <- I2 by lia. apply rsum_ext. intros k Hk. f_equal. unfold up. now rewrite Gold by lia.
        * rewrite (rsum_ext o _ (fun p => up G1 r p * F p c)%R).
          2: { intros k Hk. rewrite Z.add_0_l. f_equal.
               - unfold up. now rewrite Gold by lia.
               - unfold up. destruct (Z.leb_spec k c); auto; lia. }
          rewrite (rsum_upto jb (c - o)); [|lia|intros k Hk; unfold up at 2; destruct (Z.leb_spec (0 + (o + k)) c); [lia|ring]].
          specialize (HX r (c - o) ltac:(lia) ltac:(lia)). rewrite rsum_S in HX by lia.
          replace (o + (c - o)) with c in * by lia.
          rewrite (rsum_ext (c - o) _ (fun k => (X r k * F (o + k)%Z c)%R)).
          2: { intros k Hk. rewrite Z.add_0_l. unfold up. destruct (Z.leb_spec r (o + k)); [|lia]. destruct (Z.leb_spec (o + k) c); [|lia].
               now rewrite GX by lia. }
          rewrite Z.add_0_l. unfold up at 2 3. destruct (Z.leb_spec r c); [|lia]. rewrite Z.leb_refl.
          replace (G r c) with (X r (c - o)) by (rewrite <- GX by lia; f_equal; lia).
          rewrite HX. unfold kron. ifs; try lia; ring.
      + rewrite (rsum_zero o).
        2: { intros k Hk. unfold up at 1. destruct (Z.leb_spec r (0 + k)); [lia|ring]. }
        rewrite Rplus_0_l. destruct (Z_lt_ge_dec c o) as [Cc|Cc].
        * rewrite rsum_zero; [unfold kron; ifs; auto; lia|].
          intros k Hk. unfold up at 2. destruct (Z.leb_spec (0 + (o + k)) c); [lia|ring].
        * rewrite <- J2 by lia. apply rsum_ext. intros k Hk. rewrite Z.add_0_l. f_equal. unfold up.
          destruct (Z.leb_spec (o + k) c); auto. ifs; try lia; symmetry; apply I1; lia.
  Qed.

  Lemma dtrtri_ok nb F :
    exists G info, dtrtri nb n (cmat n n F) = OK (cmat n n G, info) /\ 0 <= info /\
      (info = 0 <-> forall c, 0 <= c < n -> F c c <> 0%R) /\
      (info = 0 -> inverted F G 0 n) /\ (0 < info -> G = F).
  Proof.
    unfold dtrtri. destruct (first_zero_ok F) as (info & E & H0 & H). rewrite E. cbn [bind].
    destruct (Z.ltb_spec 0 info).
    - exists F, info. splits; auto; lia.
    - assert (info = 0) as -> by lia. pose proof (proj1 H eq_refl) as Hnz.
      destruct ((nb <=? 1) || (n <=? nb)) eqn:Eb.
      + destruct (dtrti2_ok F n 0) as (G & E1 & I); try lia; [intros; apply Hnz; lia|]. rewrite E1. cbn [bind]. exists G, 0. splits; auto; lia.
      + apply orb_false_elim in Eb. destruct Eb as [B1 B2]. apply Z.leb_gt in B1, B2.
        set (q := (n + nb - 1) / nb).
        assert (Q1 : n <= q * nb < n + nb).
        { unfold q. pose proof (Z.div_mod (n + nb - 1) nb ltac:(lia)). pose proof (Z.mod_pos_bound (n + nb - 1) nb ltac:(lia)). nia. }
        match goal with |- exists G info, bind (for_up 0 q ?f ?s) _ = _ /\ _ =>
          destruct (for_up_inv (fun b a => exists G, a = cmat n n G /\ inverted F G 0 (Z.min n (b * nb))) 0 q f s)
            as (a & E1 & G & -> & I); [nia| | |rewrite E1; cbn [bind]; exists G, 0] end.
        * exists F. split; auto. rewrite Z.mul_0_l, Z.min_r by lia. split; [auto|lia].
        * intros b a Hb (G1 & -> & I). set (o := b * nb). assert (Ho : 0 <= o < n) by (unfold o; nia).
          set (jb := Z.min nb (n - o)). assert (Hjb : 0 < jb /\ o + jb <= n) by lia.
          replace (Z.min n (b * nb)) with o in * by (unfold o in *; lia).
          replace (Z.min n ((b + 1) * nb)) with (o + jb) by (unfold jb, o; nia).
          rewrite dtrmm_ok by lia. cbn [bind]. set (G2 := fun i j : Z => _).
          assert (U : forall p c, o <= p < n -> o <= c < n -> G1 p c = F p c) by (intros; apply (proj1 I); lia).
          destruct (dtrsm_right_upper_ok n n Hn G2 o jb o o 0 o) as (X & E2 & HX); try lia.
          { intros j Hj. unfold G2. ifs; try lia; rewrite U by lia; apply Hnz; lia. }
          rewrite E2. cbn [bind].
          match goal with |- exists s, dtrti2 n jb o (cmat n n ?H3) = _ /\ _ => set (G3 := H3) end.
          destruct (dtrti2_ok G3 jb o) as (G & E3 & J); try lia.
          { intros c Hc. unfold G3, G2. ifs; try lia; rewrite U by lia; apply Hnz; lia. }
          rewrite E3. eexists; split; [reflexivity|]. exists G. split; [auto|].
          apply (inverted_step F G1 G o jb) with (X := X); try lia; auto.
          -- intros c Hc. apply Hnz. lia.
          -- intros r c Hr Hc. transitivity (rsum (c + 1) (fun k => X r k * G2 (o + k)%Z (o + c)%Z))%R.
             ++ apply rsum_ext. intros k Hk. f_equal. unfold G2. ifs; try lia; now rewrite U by lia.
             ++ rewrite HX by lia. f_equal. unfold G2. ifs; try lia. unfold upmul. apply rsum_ext. intros p Hp.
                unfold up. rewrite !Z.add_0_l, Z.sub_0_r.
                destruct (Z.leb_spec r p); [|ring]. f_equal. apply (proj1 I); lia.
          -- destruct J as (J1 & J2). split.
             ++ intros i c Hi Hc Hd. rewrite J1 by auto. unfold G3, G2. ifs; auto; try lia; f_equal; lia.
             ++ intros r c Hr Hc. rewrite <- J2 by auto. apply rsum_ext. intros k Hk. f_equal. unfold up.
                destruct (Z.leb_spec (o + k) c); auto. unfold G3, G2. ifs; auto; lia.
        * rewrite Z.min_l in I by lia. splits; auto; lia.
  Qed.

  (** Columns from j on solved: X L = V with V the upper triangle of G. *)
  Definition solved (G X : Z -> Z -> R) (j : Z) : Prop :=
    forall i c, 0 <= i < n -> j <= c < n ->
      up G i c = (X i c + rsum (n - (c + 1)) (fun k => X i (c + 1 + k)%Z * G (c + 1 + k)%Z c))%R.
  Lemma solved_full G X : solved G X 0 -> forall i c, 0 <= i < n -> 0 <= c < n ->
    up G i c = rsum n (fun k => X i k * lo G k c)%R.
  Proof.
    intros H i c Hi Hc. rewrite H by lia. replace n with (c + 1 + (n - (c + 1))) at 2 by lia.
    rewrite rsum_split, rsum_S by lia. rewrite (rsum_zero c).
    2: { intros k Hk. unfold lo. ifs; try lia; ring. }
    unfold lo at 1. ifs; try lia. rewrite Rmult_1_r, Rplus_0_l. f_equal.
    apply rsum_ext. intros k Hk. unfold lo. ifs; try lia; auto.
  Qed.

  Lemma dgetri_unblocked_ok G work : n <= zlen work ->
    exists X work', dgetri_unblocked n (cmat n n G) work = OK (cmat n n X, work') /\ solved G X 0.
  Proof.
    intros Hw. unfold dgetri_unblocked.
    match goal with |- exists X work', for_down (n - 1) 0 ?f ?s = _ /\ _ =>
      destruct (for_down_inv (fun j '(a, wk) => exists X, a = cmat n n X /\ zlen wk = zlen work /\
          (forall i c, 0 <= i < n -> 0 <= c < j + 1 -> X i c = G i c) /\ solved G X (j + 1)) (n - 1) 0 f s)
        as ([a wk] & E & X & -> & W & X1 & X2); [lia| | |exists X, wk; rewrite E; auto] end.
    - exists G. splits; auto. intros i c Hi Hc. lia.
    - intros j [a wk] Hj (X & -> & W & X1 & X2).
      match goal with |- exists s', bind (for_up (j + 1) n ?f ?s) _ = _ /\ _ =>
        destruct (for_up_inv (fun q '(a, wk) => a = cmat n n (fun i c => if (c =? j) && inr (j + 1) (q - (j + 1)) i then 0%R else X i c) /\
           zlen wk = zlen work /\ forall x, j + 1 <= x < q -> zn 0%R wk x = G x j) (j + 1) n f s) as ([a wk'] & E & -> & W' & V); [lia| | |] end.
      + cbv beta iota. splits; auto; [|lia]. apply cmat_ext; auto. intros. ifs; auto; lia.
      + intros q [a wk'] Hq (-> & W' & V). cells. ifs; try lia. rewrite aset_OK by lia. cbn [bind]. cells.
        eexists; split; [reflexivity|]. cbv beta iota. splits.
        * apply cmat_ext; auto. intros i c Hi Hc. unfold set2. ifs; auto; lia.
        * zl. auto.
        * intros x Hx. rewrite zn_upd by lia. ifs; [subst; apply X1; lia|]. apply V. lia.
      + rewrite E. cbn [bind].
        set (X' := fun i c => if c =? j then (up G i j - rsum (n - (j + 1)) (fun k => X i (j + 1 + k)%Z * G (j + 1 + k)%Z j))%R else X i c).
        assert (E' : (if j + 1 <? n then dgemv n (cmat n n (fun i c => if (c =? j) && inr (j + 1) (n - (j + 1)) i then 0%R else X i c)) n (n - (j + 1)) 0 (j + 1) wk' (j + 1) 0 j
           else OK (cmat n n (fun i c => if (c =? j) && inr (j + 1) (n - (j + 1)) i then 0%R else X i c))) = OK (cmat n n X')).
        { assert (U : forall i, 0 <= i < n -> (if inr (j + 1) (n - (j + 1)) i then 0%R else X i j) = up G i j).
          { intros i Hi. unfold up. destruct (Z.leb_spec i j); ifs; try lia; auto. apply X1; lia. }
          destruct (Z.ltb_spec (j + 1) n).
          - rewrite dgemv_ok by lia. f_equal. apply cmat_ext; auto. intros i c Hi Hc. unfold X'.
            destruct (Z.eqb_spec c j) as [->|]; cbn [andb]; auto. destruct (inr_spec 0 n i); [|lia]. rewrite U by lia. f_equal.
            apply rsum_ext. intros k Hk. rewrite V by lia. ifs; try lia. do 2 f_equal. lia.
          - f_equal. apply cmat_ext; auto. intros i c Hi Hc. unfold X'.
            destruct (Z.eqb_spec c j) as [->|]; cbn [andb]; auto. rewrite U by lia. rewrite rsum_0 by lia. ring. }
        rewrite E'. cbn [bind]. eexists; split; [reflexivity|]. exists X'. splits; auto.
        * intros i c Hi Hc. unfold X'. ifs; try lia; apply X1; lia.
        * replace (j - 1 + 1) with j by lia. intros i c Hi Hc. destruct (Z.eq_dec c j) as [->|].
          -- unfold X' at 1. ifs; try lia. rewrite (rsum_ext _ (fun k => X' i (j + 1 + k)%Z * _)%R (fun k => X i (j + 1 + k)%Z * G (j + 1 + k)%Z j)%R).
             ++ ring. ++ intros k Hk. unfold X'. ifs; auto; lia.
          -- rewrite (X2 i c) by lia. unfold X' at 1. ifs; try lia. f_equal. apply rsum_ext. intros k Hk. unfold X'. ifs; auto; lia.
  Qed.

  Lemma dgetri_blocked_ok nb G W0 : 2 <= nb < n ->
    exists X work', dgetri_blocked nb n (cmat n n G) (cmat n nb W0) = OK (cmat n n X, work') /\ solved G X 0.
  Proof.
    intros Hnb. unfold dgetri_blocked. set (q := (n - 1) / nb).
    assert (Q : q * nb < n <= (q + 1) * nb /\ 0 <= q).
    { unfold q. pose proof (Z.div_mod (n - 1) nb ltac:(lia)). pose proof (Z.mod_pos_bound (n - 1) nb ltac:(lia)).
      pose proof (Z.div_pos (n - 1) nb). nia. }
    match goal with |- exists X work', for_down q 0 ?f ?s = _ /\ _ =>
      destruct (for_down_inv (fun b '(a, wk) => exists X W, a = cmat n n X /\ wk = cmat n nb W /\
          (forall i c, 0 <= i < n -> 0 <= c < Z.min n ((b + 1) * nb) -> X i c = G i c) /\ solved G X (Z.min n ((b + 1) * nb))) q 0 f s)
        as ([a wk] & E & X & W & -> & -> & X1 & X2); [lia| | |exists X, (cmat n nb W); rewrite E; split; auto; rewrite Z.min_r in X2 by lia; exact X2] end.
    - exists G, W0. splits; auto. rewrite Z.min_l by lia. intros i c Hi Hc. lia.
    - intros b [a wk] Hb (X & W & -> & -> & X1 & X2). set (j := b * nb). assert (Hj : 0 <= j < n) by (unfold j; nia).
      set (jb := Z.min nb (n - j)). assert (Hjb : 0 < jb <= nb /\ j + jb <= n) by lia.
      replace (Z.min n ((b + 1) * nb)) with (j + jb) in * by (unfold jb, j; nia).
      replace (Z.min n ((b - 1 + 1) * nb)) with j by (replace (b - 1 + 1) with b by lia; unfold j in *; lia).
      (* the copy *)
      match goal with |- exists s', bind (for_up j (j + jb) ?f ?s) _ = _ /\ _ =>
        destruct (for_up_inv (fun p '(a, wk) => exists V, a = cmat n n (fun i c => if inr j (p - j) c && (c <? i) then 0%R else X i c) /\
           wk = cmat n nb V /\ forall i c, j <= c < p -> c < i < n -> V i (c - j) = G i c) j (j + jb) f s) as ([a wk] & E & V & -> & -> & HV); [lia| | |] end.
      + exists W. splits; auto; [|lia]. apply cmat_ext; auto. intros. ifs; auto; lia.
      + intros p [a wk] Hp (V & -> & -> & HV).
        match goal with |- exists s', for_up (p + 1) n ?f ?s = _ /\ _ =>
          destruct (for_up_inv (fun q '(a, wk) => exists V', a = cmat n n (fun i c => if (inr j (p - j) c && (c <? i)) || (c =? p) && inr (p + 1) (q - (p + 1)) i then 0%R else X i c) /\
             wk = cmat n nb V' /\ (forall i c, j <= c < p -> c < i < n -> V' i (c - j) = G i c) /\ forall i, p + 1 <= i < q -> V' i (p - j) = G i p)
             (p + 1) n f s) as ([a wk] & E & V' & -> & -> & HV1 & HV2); [lia| | |rewrite E] end.
        * exists V. splits; auto; [|lia]. apply cmat_ext; auto. intros. ifs; auto; lia.
        * intros x [a wk] Hx (V' & -> & -> & HV1 & HV2). cells. eexists; split; [reflexivity|].
          replace (if inr j (p - j) p && (p <? x) || (p =? p) && inr (p + 1) (x - (p + 1)) x then 0%R else X x p) with (G x p).
          2: { ifs; try lia. symmetry. apply X1; lia. }
          exists (set2 V' x (p - j) (G x p)). splits; auto.
          -- apply cmat_ext; auto. intros i c Hi Hc. unfold set2. ifs; auto; lia.
          -- intros i c Hc Hi. unfold set2. ifs; try lia; apply HV1; lia.
          -- intros i Hi. unfold set2. ifs; try lia; subst; auto; apply HV2; lia.
        * eexists; split; [reflexivity|]. exists V'. splits; auto.
          -- apply cmat_ext; auto. intros i c Hi Hc. ifs; auto; lia.
          -- intros i c Hc Hi. destruct (Z.eq_dec c p) as [->|]; [apply HV2; lia|apply HV1; lia].
      + rewrite E. cbn [bind]. set (X0 := fun i c : Z => if inr j (j + jb - j) c && (c <? i) then 0%R else X i c).
        assert (U : forall i c, 0 <= i < n -> j <= c < j + jb -> X0 i c = up G i c).
        { intros i c Hi Hc. unfold X0, up. destruct (Z.leb_spec i c); ifs; try lia; auto. apply X1; lia. }
        (* the product with what is solved *)
        set (C := fun i c => if inr j jb c then (up G i c - rsum (n - (j + jb)) (fun k => X i (j + jb + k)%Z * G (j + jb + k)%Z c))%R else X i c).
        assert (E1 : (if j + jb <? n then dgemm n (fun _ l c => cget n (cmat n nb V) (j + jb + l) c) (cmat n n X0) n jb (n - j - jb) 0 (j + jb) 0 j
                      else OK (cmat n n X0)) = OK (cmat n n C)).
        { destruct (Z.ltb_spec (j + jb) n) as [L|L].
          - rewrite (dgemm_ok n n Hn _ (fun l c => V (j + jb + l) c)); try lia.
            2: { intros G' l c _ Hl Hc. rewrite cget_mat by lia. auto. }
            f_equal. apply cmat_ext; auto. intros i c Hi Hc. unfold C.
            destruct (inr_spec 0 n i); [|lia]. cbn [andb]. destruct (inr_spec j jb c).
            + rewrite U by lia. f_equal. replace (n - (j + jb)) with (n - j - jb) by lia. apply rsum_ext. intros k Hk.
              unfold X0. ifs; try lia; replace (0 + (i - 0)) with i by lia; f_equal; apply HV; lia.
            + unfold X0. ifs; auto; lia.
          - f_equal. apply cmat_ext; auto. intros i c Hi Hc. unfold C. destruct (inr_spec j jb c).
            + rewrite U by lia. rewrite rsum_0 by lia. ring.
            + unfold X0. ifs; auto; lia. }
        rewrite E1. cbn [bind].
        destruct (dtrsm_right_lower_ok n n C nb V j n jb j) as (Y & E2 & HY); try lia.
        rewrite E2. cbn [bind]. eexists; split; [reflexivity|].
        set (X' := fun i c : Z => _). exists X', V. splits; auto.
        * intros i c Hi Hc. unfold X', C. ifs; try lia; apply X1; lia.
        * assert (Xr : forall i c, 0 <= i < n -> j + jb <= c < n -> X' i c = X i c).
          { intros i c Hi Hc. unfold X', C. ifs; try lia; auto. }
          assert (Xm : forall i c, 0 <= i < n -> j <= c < j + jb -> X' i c = Y i (c - j)).
          { intros i c Hi Hc. unfold X', C. ifs; try lia; auto. }
          intros i c Hi Hc. destruct (Z_lt_ge_dec c (j + jb)) as [L|L].
          -- specialize (HY i (c - j) ltac:(lia) ltac:(lia)). replace (j + (c - j)) with c in HY by lia.
             unfold C in HY. destruct (inr_spec j jb c); [|lia].
             rewrite Xm by lia. replace (n - (c + 1)) with (jb - (c - j + 1) + (n - (j + jb))) by lia.
             rewrite rsum_split by lia.
             rewrite (rsum_ext (jb - (c - j + 1)) (fun k => X' i (c + 1 + k)%Z * G (c + 1 + k)%Z c)%R (fun k => (Y i (c - j + 1 + k)%Z * V (j + (c - j + 1 + k))%Z (c - j)%Z)%R)).
             2: { intros k Hk. rewrite Xm, HV by lia. f_equal; f_equal; lia. }
             rewrite (rsum_ext (n - (j + jb)) (fun k => X' i (c + 1 + (jb - (c - j + 1) + k))%Z * _)%R (fun k => X i (j + jb + k)%Z * G (j + jb + k)%Z c)%R).
             2: { intros k Hk. rewrite Xr by lia. f_equal; f_equal; lia. }
             lra.
          -- rewrite (X2 i c) by lia. rewrite Xr by lia. f_equal. apply rsum_ext. intros k Hk. now rewrite Xr by lia.
  Qed.

  (** The inverse renumbering. *)
  Fixpoint unperm (pv : Z -> Z) (m : nat) (i : Z) : Z :=
    match m with O => i | S m => swp (Z.of_nat m) (pv (Z.of_nat m)) (unperm pv m i) end.
  Lemma unperm_perm pv m i : unperm pv m (perm 0 pv m i) = i.
  Proof. revert i. induction m as [|m IH]; intros i; cbn [perm unperm]; auto. rewrite Z.add_0_l, IH. apply swp_swp. Qed.
  Lemma perm_unperm pv m i : perm 0 pv m (unperm pv m i) = i.
  Proof. revert i. induction m as [|m IH]; intros i; cbn [perm unperm]; auto. rewrite Z.add_0_l, swp_swp. apply IH. Qed.
  Lemma unperm_range pv m i : (forall k, 0 <= k < Z.of_nat m -> k <= pv k < n) -> Z.of_nat m <= n -> 0 <= i < n -> 0 <= unperm pv m i < n.
  Proof.
    intros H Hm Hi. induction m as [|m IH]; cbn [unperm]; auto. pose proof (H (Z.of_nat m) ltac:(lia)).
    apply swp_range; try lia. apply IH; [intros; apply H|]; lia.
  Qed.

  Lemma unswap_ok X ipiv pv : n <= zlen ipiv -> (forall k, 0 <= k < n -> k <= pv k < n) -> (forall x, 0 <= x < n -> zn 0 ipiv x = pv x + 1) ->
    for_down (n - 2) 0 (fun j a => jp <- aget ipiv j ;; if jp - 1 =? j then OK a else dswap_cols n a n 0 j 0 (jp - 1)) (cmat n n X)
    = OK (cmat n n (fun i c => X i (unperm pv (Z.to_nat n) c))).
  Proof.
    intros Hz Hpv HV.
    destruct (for_down_inv (fun j a => exists Y, a = cmat n n Y /\ forall i c, 0 <= i < n -> 0 <= c < n ->
        Y i (unperm pv (Z.to_nat (j + 1)) c) = X i (unperm pv (Z.to_nat n) c)) (n - 2) 0
        (fun j a => jp <- aget ipiv j ;; if jp - 1 =? j then OK a else dswap_cols n a n 0 j 0 (jp - 1)) (cmat n n X)) as (a & E & Y & -> & HY).
    - lia.
    - exists X. split; auto. intros i c Hi Hc. f_equal.
      replace (Z.to_nat n) with (S (Z.to_nat (n - 2 + 1))) by lia. cbn [unperm].
      replace (Z.of_nat (Z.to_nat (n - 2 + 1))) with (n - 1) by lia.
      replace (pv (n - 1)) with (n - 1) by (specialize (Hpv (n - 1)); lia). now rewrite swp_self.
    - intros j a Hj (Y & -> & HY). rewrite (aget_OK 0) by lia. cbn [bind]. rewrite HV by lia.
      replace (pv j + 1 - 1) with (pv j) by lia. specialize (Hpv j ltac:(lia)) as Hp.
      assert (U : forall c, unperm pv (Z.to_nat (j + 1)) c = swp j (pv j) (unperm pv (Z.to_nat (j - 1 + 1)) c)).
      { intros c. replace (Z.to_nat (j + 1)) with (S (Z.to_nat j)) by lia. cbn [unperm]. rewrite Z2Nat.id by lia.
        now replace (j - 1 + 1) with j by lia. }
      exists (cmat n n (fun i c => Y i (swp j (pv j) c))). split.
      + destruct (Z.eqb_spec (pv j) j) as [Ej|Nj].
        * f_equal. apply cmat_ext; auto. intros i c Hi Hc. now rewrite Ej, swp_self.
        * rewrite dswap_cols_ok by lia. f_equal. apply cmat_ext; auto. intros i c Hi Hc. ifs; auto; lia.
      + exists (fun i c => Y i (swp j (pv j) c)). split; [reflexivity|]. intros i c Hi Hc. cbv beta. rewrite <- U. now apply HY.
    - rewrite E. f_equal. apply cmat_ext; auto.
  Qed.

  Theorem dgetri_ok nb G ipiv pv work : 1 <= nb -> zlen work = n * nb -> n <= zlen ipiv ->
    (forall k, 0 <= k < n -> k <= pv k < n) -> (forall x, 0 <= x < n -> zn 0 ipiv x = pv x + 1) ->
    ((forall c, 0 <= c < n -> G c c <> 0%R) /\
      exists V X, dgetri nb n (cmat n n G) ipiv work = OK (cmat n n (fun i c => X i (unperm pv (Z.to_nat n) c)), 0) /\
       (forall r c, 0 <= r < n -> 0 <= c < n -> rsum n (fun k => up V r k * up G k c)%R = kron r c) /\
       (forall i c, 0 <= i < n -> 0 <= c < n -> up V i c = rsum n (fun k => X i k * lo G k c)%R)) \/
    ((exists c, 0 <= c < n /\ G c c = 0%R) /\ exists info, dgetri nb n (cmat n n G) ipiv work = OK (cmat n n G, info) /\ 0 < info).
  Proof.
    intros Hnb Hw Hz Hpv HV. unfold dgetri. rewrite aset_OK by nia. cbn [bind].
    set (wk := upd work _ _). assert (Hwk : zlen wk = n * nb) by (unfold wk; zl; auto).
    destruct (Z.eqb_spec n 0); [lia|].
    destruct (dtrtri_ok nb G) as (G1 & info & E & H0 & H1 & H2 & H3). rewrite E. cbn [bind].
    destruct (Z.ltb_spec 0 info) as [L|L].
    - right. split; [|exists info; rewrite H3 by auto; auto].
      assert (Q : exists info', first_zero n (cmat n n G) = OK info' /\ 0 <= info') by (destruct (first_zero_ok G) as (x & ? & ? & _); eauto).
      clear Q. assert (NA : ~ forall c, 0 <= c < n -> G c c <> 0%R) by (intros C; apply H1 in C; lia).
      clear - NA Hn. revert NA. 
      assert (D : forall m, 0 <= m -> (forall c, 0 <= c < m -> G c c <> 0%R) \/ exists c, 0 <= c < m /\ G c c = 0%R).
      { apply natlike_ind; [left; lia|]. intros m Hm [IH|(c & Hc & E)].
        - destruct (Req_dec (G m m) 0) as [E|N]; [right; exists m; split; [lia|auto]|].
          left. intros c Hc. destruct (Z.eq_dec c m) as [->|]; auto. apply IH. lia.
        - right. exists c. split; [lia|auto]. }
      intros NA. destruct (D n) as [C|C]; [lia|contradiction|auto].
    - left. assert (info = 0) by lia. subst info. split; [now apply H1|]. destruct (H2 eq_refl) as (I1 & I2).
      assert (Lo : forall k c, 0 <= k < n -> 0 <= c < n -> lo G1 k c = lo G k c).
      { intros k c Hk Hc. unfold lo. ifs; auto; apply I1; lia. }
      assert (S : exists X work', (if (nb <? 2) || (n <=? nb) then dgetri_unblocked n (cmat n n G1) wk else dgetri_blocked nb n (cmat n n G1) wk)
         = OK (cmat n n X, work') /\ solved G1 X 0).
      { destruct ((nb <? 2) || (n <=? nb)) eqn:Eb.
        - apply dgetri_unblocked_ok. nia.
        - apply orb_false_elim in Eb. destruct Eb as [B1 B2]. apply Z.ltb_ge in B1. apply Z.leb_gt in B2.
          replace wk with (cmat n nb (fun i j => zn 0%R wk (i + j * n))).
          + apply dgetri_blocked_ok. lia.
          + unfold cmat. apply (zn_ext 0%R); [zl; lia|]. intros k Hk. rewrite zn_ztab by (revert Hk; zl; lia). f_equal.
            pose proof (Z.div_mod k n). lia. }
      destruct S as (X & work' & E1 & S). rewrite E1. cbn [bind].
      rewrite (unswap_ok X ipiv pv) by auto. cbn [bind]. exists G1, X. split; [auto|]. split.
      + intros r c Hr Hc. rewrite <- I2 by lia. apply rsum_ext. intros k Hk. now rewrite Z.add_0_l.
      + intros i c Hi Hc. rewrite (solved_full G1 X S) by auto. apply rsum_ext. intros k Hk. now rewrite Lo by lia.
  Qed.
End Inv.
