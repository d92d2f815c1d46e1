(** invert returns the inverse and the absolute value of the determinant. *)
From Coq Require Import List ZArith Reals Lia Lra Bool.
From Verif.Base Require Import Imp Sums RealOps Loops Matrix Tables.
From Verif.Lapack Require Import LapackModel LapackSpec LapackBlas LapackLu LapackInv DetFacts.
Import ListNotations.
Open Scope Z_scope.

(** ** Sums over renumbered indices *)
Lemma rsum_set n p v f : 0 <= p < n -> rsum n (fun i => if i =? p then v else f i) = (rsum n f - f p + v)%R.
Proof.
  intros Hp. replace n with (p + 1 + (n - (p + 1))) by lia.
  rewrite !(rsum_split (p + 1)), !rsum_S by lia. rewrite Z.eqb_refl.
  rewrite (rsum_ext p _ f) by (intros; ifs; auto; lia).
  rewrite (rsum_ext (n - (p + 1)) _ (fun i => f (p + 1 + i)%Z)) by (intros; ifs; auto; lia). ring.
Qed.
Lemma rsum_swp n p q f : 0 <= p < n -> 0 <= q < n -> rsum n (fun i => f (swp p q i)) = rsum n f.
Proof.
  intros Hp Hq. destruct (Z.eq_dec p q) as [->|N].
  - apply rsum_ext. intros. now rewrite swp_self.
  - rewrite (rsum_ext n _ (fun i => if i =? p then f q else (fun i => if i =? q then f p else f i) i)).
    + rewrite rsum_set, rsum_set by lia. ifs; try lia. ring.
    + intros i Hi. unfold swp. ifs; auto.
Qed.
Lemma rsum_perm n pv m f : (forall k, 0 <= k < n -> k <= pv k < n) -> Z.of_nat m <= n ->
  rsum n (fun i => f (perm 0 pv m i)) = rsum n f.
Proof.
  intros Hpv. induction m as [|m IH]; intros Hm; auto. rewrite <- IH by lia. cbn [perm]. rewrite !Z.add_0_l.
  specialize (Hpv (Z.of_nat m) ltac:(lia)).
  apply (rsum_swp n (Z.of_nat m) (pv (Z.of_nat m)) (fun i => f (perm 0 pv m i))); lia.
Qed.
Lemma rsum_kron n i f : 0 <= i < n -> rsum n (fun k => kron i k * f k)%R = f i.
Proof.
  intros Hi. rewrite (rsum_ext n _ (fun k => if k =? i then f i else (fun _ => 0%R) k)).
  - rewrite rsum_set by lia. rewrite rsum_zero by auto. ring.
  - intros k Hk. unfold kron. ifs; subst; try lia; ring.
Qed.
Lemma rsum_kron_r n i f : 0 <= i < n -> rsum n (fun k => f k * kron k i)%R = f i.
Proof.
  intros Hi. rewrite <- (rsum_kron n i f) by auto. apply rsum_ext. intros k Hk. unfold kron. ifs; subst; try lia; ring.
Qed.
Lemma rsum_assoc n (f g : Z -> R) (H : Z -> Z -> R) :
  rsum n (fun k => f k * rsum n (fun p => H k p * g p))%R = rsum n (fun p => rsum n (fun k => f k * H k p) * g p)%R.
Proof.
  rewrite (rsum_ext n _ (fun k => rsum n (fun p => f k * H k p * g p)%R)).
  - rewrite rsum_swap. apply rsum_ext. intros p Hp. rewrite (Rmult_comm _ (g p)), <- rsum_scal. apply rsum_ext. intros. ring.
  - intros k Hk. rewrite <- rsum_scal. apply rsum_ext. intros. ring.
Qed.

(** ** Cancelling triangular factors *)
Lemma cancel_upper n G (y : Z -> R) : (forall c, 0 <= c < n -> G c c <> 0%R) ->
  (forall c, 0 <= c < n -> rsum n (fun k => y k * up G k c)%R = 0%R) -> forall k, 0 <= k < n -> y k = 0%R.
Proof.
  intros Hnz H.
  assert (D : forall m, 0 <= m -> m <= n -> forall k, 0 <= k < m -> y k = 0%R).
  { apply (natlike_ind (fun m => m <= n -> forall k, 0 <= k < m -> y k = 0%R)); [lia|].
    intros m Hm IH Hmn k Hk. destruct (Z.eq_dec k m) as [->|]; [|apply IH; lia].
    specialize (H m ltac:(lia)). rewrite (rsum_upto n m) in H.
    - rewrite rsum_zero in H by (intros k Hk'; rewrite IH by lia; ring). unfold up in H. rewrite Z.leb_refl in H.
      specialize (Hnz m ltac:(lia)). rewrite Rplus_0_l in H. apply Rmult_integral in H. tauto.
    - lia.
    - intros k Hk'. unfold up. destruct (Z.leb_spec k m); [lia|ring]. }
  intros k Hk. apply (D n); lia.
Qed.
Lemma cancel_lower n G (y : Z -> R) : (forall c, 0 <= c < n -> rsum n (fun k => y k * lo G k c)%R = 0%R) ->
  forall k, 0 <= k < n -> y k = 0%R.
Proof.
  intros H.
  assert (D : forall m, 0 <= m -> m <= n -> forall k, n - m <= k < n -> y k = 0%R).
  { apply (natlike_ind (fun m => m <= n -> forall k, n - m <= k < n -> y k = 0%R)); [lia|].
    intros m Hm IH Hmn k Hk. destruct (Z.eq_dec k (n - Z.succ m)) as [E|]; [|apply IH; lia].
    specialize (H k ltac:(lia)). replace n with (k + 1 + (n - (k + 1))) in H by lia. rewrite rsum_split, rsum_S in H by lia.
    rewrite (rsum_zero k) in H by (intros i Hi; unfold lo; ifs; try lia; ring).
    rewrite (rsum_zero (n - (k + 1))) in H by (intros i Hi; rewrite IH by lia; ring).
    unfold lo in H. ifs; try lia. revert H. ifs; try lia. lra. }
  intros k Hk. apply (D n); lia.
Qed.
(** A triangular matrix with a left inverse has no zero on the diagonal. *)
Lemma upper_regular n G (W : Z -> Z -> R) :
  (forall i c, 0 <= i < n -> 0 <= c < n -> rsum n (fun k => W i k * up G k c)%R = kron i c) ->
  forall c, 0 <= c < n -> G c c <> 0%R.
Proof.
  intros H.
  assert (D : forall m, 0 <= m -> m <= n -> forall c, 0 <= c < m -> G c c <> 0%R /\ forall i, c < i < n -> W i c = 0%R).
  { apply (natlike_ind (fun m => m <= n -> forall c, 0 <= c < m -> G c c <> 0%R /\ forall i, c < i < n -> W i c = 0%R)); [lia|].
    intros m Hm IH Hmn c Hc. destruct (Z.eq_dec c m) as [->|]; [|apply IH; lia].
    assert (E : forall i, m <= i < n -> (W i m * G m m)%R = kron i m).
    { intros i Hi. rewrite <- (H i m) by lia. rewrite (rsum_upto n m).
      - rewrite rsum_zero. + unfold up. rewrite Z.leb_refl. ring.
        + intros k Hk. destruct (IH ltac:(lia) k ltac:(lia)) as [_ Z0]. rewrite Z0 by lia. ring.
      - lia.
      - intros k Hk. unfold up. destruct (Z.leb_spec k m); [lia|ring]. }
    assert (N : G m m <> 0%R).
    { intros C. specialize (E m ltac:(lia)). rewrite C in E. unfold kron in E. rewrite Z.eqb_refl in E. lra. }
    split; auto. intros i Hi. specialize (E i ltac:(lia)). unfold kron in E. destruct (Z.eqb_spec i m); [lia|].
    apply Rmult_integral in E. tauto. }
  intros c Hc. apply (D n); lia.
Qed.

(** A triangular matrix with a zero on the diagonal sends some vector to zero. *)
Lemma upper_kernel n G c : 0 <= c < n -> (forall k, 0 <= k < c -> G k k <> 0%R) -> G c c = 0%R ->
  exists v, v c = 1%R /\ forall i, 0 <= i < n -> rsum n (fun k => up G i k * v k)%R = 0%R.
Proof.
  intros Hc Hnz H0.
  assert (D : forall m, 0 <= m -> m <= c -> exists v, v c = 1%R /\ (forall k, c < k -> v k = 0%R) /\
    forall i, c - m <= i < n -> rsum n (fun k => up G i k * v k)%R = 0%R).
  { apply (natlike_ind (fun m => m <= c -> exists v, v c = 1%R /\ (forall k, c < k -> v k = 0%R) /\
      forall i, c - m <= i < n -> rsum n (fun k => up G i k * v k)%R = 0%R)).
    - intros _. exists (fun k => if k =? c then 1%R else 0%R). rewrite Z.eqb_refl. splits; auto.
      + intros k Hk. ifs; auto; lia.
      + intros i Hi. apply rsum_zero. intros k Hk. cbv beta. unfold up. destruct (Z.eqb_spec k c) as [->|]; [|ring].
        destruct (Z.leb_spec i c); [|ring]. replace i with c by lia. rewrite H0. ring.
    - intros m Hm IH Hmc. destruct IH as (v & V1 & V2 & V3); [lia|]. set (r := c - Z.succ m).
      set (q := rsum n (fun k => if k =? r then 0 else up G r k * v k)%R).
      exists (fun k => if k =? r then (- q / G r r)%R else v k). splits.
      + ifs; auto; unfold r in *; lia.
      + intros k Hk. ifs; auto; unfold r in *; lia.
      + intros i Hi. destruct (Z.eq_dec i r) as [->|].
        * rewrite (rsum_ext n _ (fun k => if k =? r then (up G r r * (- q / G r r))%R else (fun k => if k =? r then 0 else up G r k * v k)%R k)).
          -- rewrite rsum_set by (unfold r; lia). rewrite Z.eqb_refl. fold q. unfold up. rewrite Z.leb_refl.
             field. apply Hnz. unfold r. lia.
          -- intros k Hk. ifs; subst; auto.
        * rewrite <- (V3 i) by (unfold r in *; lia). apply rsum_ext. intros k Hk. destruct (Z.eqb_spec k r) as [->|]; auto.
          unfold up. destruct (Z.leb_spec i r); [unfold r in *; lia|ring]. }
  destruct (D c) as (v & V1 & _ & V); try lia. exists v. split; auto. intros i Hi. apply V. lia.
Qed.
Lemma least_zero n (g : Z -> R) : (exists c, 0 <= c < n /\ g c = 0%R) -> exists c, 0 <= c < n /\ g c = 0%R /\ forall k, 0 <= k < c -> g k <> 0%R.
Proof.
  intros (c & Hc & E).
  assert (D : forall m, 0 <= m -> forall c, 0 <= c <= m -> c < n -> g c = 0%R -> exists c, 0 <= c < n /\ g c = 0%R /\ forall k, 0 <= k < c -> g k <> 0%R).
  { apply (natlike_ind (fun m => forall c, 0 <= c <= m -> c < n -> g c = 0%R -> exists c, 0 <= c < n /\ g c = 0%R /\ forall k, 0 <= k < c -> g k <> 0%R)).
    - intros x Hx Hn Gx. exists x. splits; auto; try lia.
    - intros m Hm IH x Hx Hn Gx. destruct (Req_dec (rsum x (fun k => if Reqb (g k) 0 then 1%R else 0%R)) 0) as [Z0|Nz].
      + exists x. splits; auto; try lia. intros k Hk Gk.
        assert (N : forall i, 0 <= i < x -> (0 <= (if Reqb (g i) 0 then 1 else 0))%R) by (intros; destruct (Reqb _ _); lra).
        pose proof (rsum_term x (fun k => if Reqb (g k) 0 then 1%R else 0%R) k N Hk) as Tm. cbv beta in Tm.
        rewrite (proj2 (Reqb_true (g k) 0) Gk) in Tm. lra.
      + assert (X : exists k, 0 <= k < x /\ g k = 0%R).
        { apply Classical_Prop.NNPP. intros C. apply Nz. apply rsum_zero. intros k Hk. cbv beta. destruct (Reqb (g k) 0) eqn:Ek; auto.
          apply Reqb_true in Ek. exfalso. apply C. eauto. }
        destruct X as (k & Hk & Gk). apply (IH k); auto; lia. }
  apply (D c) with (c := c); auto; lia.
Qed.

Section Factors.
  Variable n : Z.
  Hypothesis Hn : 0 < n.
  Variables (A G : Z -> Z -> R) (pv : Z -> Z).
  Hypothesis Fac : factored n A G pv.
  Let s := perm 0 pv (Z.to_nat n).
  Let u := unperm pv (Z.to_nat n).

  Lemma s_range i : 0 <= i < n -> 0 <= s i < n.
  Proof. intros Hi. apply perm_range; auto; try lia. intros k Hk. apply Fac. lia. Qed.
  Lemma u_range i : 0 <= i < n -> 0 <= u i < n.
  Proof. intros Hi. apply unperm_range; try lia. intros k Hk. apply Fac. lia. Qed.

  Lemma regular_of_left_inverse B : (forall i j, 0 <= i < n -> 0 <= j < n -> rsum n (fun k => B i k * A k j)%R = delta i j) ->
    forall c, 0 <= c < n -> G c c <> 0%R.
  Proof.
    intros HB. apply (upper_regular n G (fun i p => rsum n (fun r => B i (s r) * lo G r p)%R)).
    intros i c Hi Hc. change (kron i c) with (delta i c). rewrite <- HB by auto.
    rewrite <- rsum_assoc. rewrite <- (rsum_perm n pv (Z.to_nat n) (fun k => (B i k * A k c)%R)) by (try lia; apply Fac).
    apply rsum_ext. intros r Hr. fold (s r). f_equal. symmetry. apply Fac; auto.
  Qed.

  (** A matrix whose factor has a zero on the diagonal sends some vector to zero. *)
  Lemma kernel_of_factors : (exists c, 0 <= c < n /\ G c c = 0%R) ->
    exists v, (exists c, 0 <= c < n /\ v c <> 0%R) /\ forall i, 0 <= i < n -> rsum n (fun k => A i k * v k)%R = 0%R.
  Proof.
    intros C. destruct (least_zero n (fun c => G c c) C) as (c & Hc & E & Hnz).
    destruct (upper_kernel n G c Hc Hnz E) as (v & V1 & V). exists v. split; [exists c; split; auto; rewrite V1; lra|].
    intros i Hi. pose proof (u_range i Hi) as Ui.
    rewrite (rsum_ext n _ (fun k => rsum n (fun p => lo G (u i) p * up G p k) * v k)%R).
    - rewrite <- rsum_assoc. apply rsum_zero. intros p Hp. cbv beta. rewrite V by auto. ring.
    - intros k Hk. f_equal. destruct Fac as (_ & F & _). rewrite <- F by auto. f_equal. symmetry. apply perm_unperm.
  Qed.

  (** The columns put back. *)
  Lemma inverse_from_factors V X : (forall c, 0 <= c < n -> G c c <> 0%R) ->
    (forall r c, 0 <= r < n -> 0 <= c < n -> rsum n (fun k => up V r k * up G k c)%R = kron r c) ->
    (forall i c, 0 <= i < n -> 0 <= c < n -> up V i c = rsum n (fun k => X i k * lo G k c)%R) ->
    inverse_of n A (fun i c => X i (u c)).
  Proof.
    intros Hnz HV HX.
    set (Y r j := rsum n (fun p => lo G r p * up G p j)%R).
    assert (AY : forall r j, 0 <= r < n -> 0 <= j < n -> A (s r) j = Y r j) by (intros; apply Fac; auto).
    assert (XY : forall i j, 0 <= i < n -> 0 <= j < n -> rsum n (fun r => X i r * Y r j)%R = kron i j).
    { intros i j Hi Hj. unfold Y. rewrite rsum_assoc. rewrite <- HV by auto. apply rsum_ext. intros k Hk. now rewrite HX by auto. }
    assert (YX : forall r t, 0 <= r < n -> 0 <= t < n -> rsum n (fun c => Y r c * X c t)%R = kron r t).
    { intros r t Hr Ht. apply Rminus_diag_uniq. revert t Ht.
      apply (cancel_lower n G (fun t => (rsum n (fun c => Y r c * X c t) - kron r t)%R)). intros c Hc. revert c Hc.
      set (Z0 c := rsum n (fun k => (rsum n (fun c => Y r c * X c k) - kron r k) * lo G k c)%R).
      apply (cancel_upper n G Z0 Hnz). intros c Hc. unfold Z0. rewrite <- rsum_assoc. fold (Y r c).
      rewrite (rsum_ext n _ (fun k => rsum n (fun c0 => Y r c0 * X c0 k) * Y k c - kron r k * Y k c)%R).
      2: { intros k Hk. unfold Y at 3 4. ring. }
      rewrite rsum_minus. rewrite <- rsum_assoc. rewrite rsum_kron by auto.
      rewrite (rsum_ext n _ (fun k => Y r k * kron k c)%R) by (intros k Hk; now rewrite XY by auto).
      rewrite rsum_kron_r by auto. ring. }
    intros i j Hi Hj. split.
    - pose proof (u_range i Hi) as Ui. pose proof (u_range j Hj) as Uj.
      transitivity (kron (u i) (u j)).
      + rewrite <- YX by auto. apply rsum_ext. intros k Hk. rewrite <- AY by auto.
        replace (s (u i)) with i; auto. symmetry. apply perm_unperm.
      + unfold kron, delta. destruct (Z.eqb_spec i j) as [->|N]; [now rewrite Z.eqb_refl|].
        destruct (Z.eqb_spec (u i) (u j)) as [E|]; auto. exfalso. apply N.
        rewrite <- (perm_unperm pv (Z.to_nat n) i), <- (perm_unperm pv (Z.to_nat n) j). unfold u in E. now rewrite E.
    - rewrite <- (rsum_perm n pv (Z.to_nat n) (fun k => (X i (u k) * A k j)%R)) by (try lia; apply Fac).
      change (delta i j) with (kron i j). rewrite <- XY by auto. apply rsum_ext. intros r Hr. fold (s r). rewrite AY by auto.
      f_equal. f_equal. apply unperm_perm.
  Qed.

  Lemma det_factors : Rabs (det (Z.to_nat n) A) = Rabs (pprod (Z.to_nat n) (fun i => G i i)).
  Proof.
    rewrite <- (det_perm (Z.to_nat n) pv A) with (m := Z.to_nat n).
    - f_equal. apply det_lu. rewrite Z2Nat.id by lia. intros i j Hi Hj. apply Fac; auto.
    - rewrite Z2Nat.id by lia. apply Fac.
    - lia.
  Qed.
End Factors.

(** ** invert *)
Section Invert.
  Variables sfmin junk : R.

  Lemma copy_in L cov : 0 < L -> shape L L cov ->
    for_up 0 L (fun j a => for_up 0 L (fun i a => v <- mget cov i j ;; aset a (j * L + i) v) a) (repeat junk (Z.to_nat (L * L)))
    = OK (cmat L L (ent 0%R cov)).
  Proof.
    intros HL Sh. set (F := ent 0%R cov).
    set (G j i := fun r c => if inr 0 j c || (c =? j) && inr 0 i r then F r c else junk).
    replace (repeat junk (Z.to_nat (L * L))) with (cmat L L (G 0 0)).
    2: { unfold cmat. apply (zn_ext junk); [zl; nia|]. intros k Hk. rewrite zn_ztab by (revert Hk; zl; nia).
         rewrite zn_repeat. unfold G. ifs; auto; try lia. all: ifs; auto. }
    rewrite (for_up_path (fun j => cmat L L (G j 0))).
    - f_equal. apply cmat_ext; auto. intros i j Hi Hj. unfold G. ifs; auto; lia.
    - lia.
    - intros j Hj. rewrite (for_up_path (fun i => cmat L L (G j i))).
      + f_equal. apply cmat_ext; auto. intros r c Hr Hc. unfold G. ifs; auto; lia.
      + lia.
      + intros i Hi. rewrite (mget_OK 0%R L L) by auto. cbn [bind]. rewrite Z.add_comm. fold (cput L (cmat L L (G j i)) i j (ent 0%R cov i j)).
        rewrite cput_mat by lia. f_equal. apply cmat_ext; auto. intros r c Hr Hc. unfold set2, G. ifs; subst; auto; lia.
  Qed.
  Lemma copy_out L F icov : 0 < L -> shape L L icov ->
    for_up 0 L (fun j (icov : list (list R)) => for_up 0 L (fun i icov => v <- aget (cmat L L F) (j * L + i) ;; mput icov i j v) icov) icov
    = OK (tab2 L L F).
  Proof.
    intros HL Sh.
    set (G j i := fun r c => if inr 0 j c || (c =? j) && inr 0 i r then F r c else ent 0%R icov r c).
    replace icov with (tab2 L L (G 0 0)) at 1.
    2: { symmetry. apply (shape_ext 0%R); try lia; auto. intros i j Hi Hj. unfold G. ifs; auto; lia. }
    rewrite (for_up_path (fun j => tab2 L L (G j 0))).
    - f_equal. apply tab2_ext. intros i j Hi Hj. unfold G. ifs; auto; lia.
    - lia.
    - intros j Hj. rewrite (for_up_path (fun i => tab2 L L (G j i))).
      + f_equal. apply tab2_ext. intros r c Hr Hc. unfold G. ifs; auto; lia.
      + lia.
      + intros i Hi. rewrite Z.add_comm. fold (cget L (cmat L L F) i j). rewrite cget_mat by lia. cbn [bind].
        rewrite mput_tab by lia. f_equal. apply tab2_ext. intros r c Hr Hc. unfold set2, G. ifs; subst; auto; lia.
  Qed.
  Lemma det_loop L G : 0 < L ->
    for_up 0 L (fun i det => v <- aget (cmat L L G) (i * L + i) ;; OK (det * v)%R) 1%R = OK (pprod (Z.to_nat L) (fun i => G i i)).
  Proof.
    intros HL. apply (for_up_path (fun i => pprod (Z.to_nat i) (fun i => G i i))); [lia|].
    intros i Hi. rewrite Z.add_comm. fold (cget L (cmat L L G) i i). rewrite cget_mat by lia. cbn [bind].
    replace (Z.to_nat (i + 1)) with (S (Z.to_nat i)) by lia. cbn [pprod]. now rewrite Z2Nat.id by lia.
  Qed.

  Theorem invert_with_ok nb L cov icov0 : 1 <= nb -> 0 < L -> shape L L cov -> shape L L icov0 ->
    exists icov, invert_with sfmin junk nb cov L icov0 = OK (icov, Rabs (det (Z.to_nat L) (ent 0%R cov))) /\
      shape L L icov /\
      ((det (Z.to_nat L) (ent 0%R cov) <> 0%R /\ inverse_of L (ent 0%R cov) (ent 0%R icov)) \/
       (det (Z.to_nat L) (ent 0%R cov) = 0%R /\ ~ invertible L (ent 0%R cov) /\
        exists v, (exists c, 0 <= c < L /\ v c <> 0%R) /\ forall i, 0 <= i < L -> rsum L (fun k => ent 0 cov i k * v k)%R = 0%R)).
  Proof.
    intros Hnb HL Sh Sh0. unfold invert_with. rewrite copy_in by auto. cbn [bind].
    set (A := ent 0%R cov).
    destruct (dgetrf_ok sfmin L HL nb A (repeat 0 (Z.to_nat (L * L)))) as (G & pv & ipiv & info & E & Fac & Hz & HV).
    { zl. nia. }
    rewrite E. cbn [bind]. change (0 <? 0) with false. cbv iota. rewrite det_loop by auto. cbn [bind].
    pose proof (det_factors L HL A G pv Fac) as D. set (P := pprod (Z.to_nat L) (fun i => G i i)) in *.
    replace (if Rltb P 0 then (- P)%R else P) with (Rabs (det (Z.to_nat L) A)).
    2: { rewrite D. destruct (Rltb P 0) eqn:C.
         - apply Rltb_true in C. now apply Rabs_left.
         - assert (~ P < 0)%R by (intros C'; apply Rltb_true in C'; congruence). apply Rabs_right. lra. }
    assert (Z0 : det (Z.to_nat L) A = 0%R <-> exists c, 0 <= c < L /\ G c c = 0%R).
    { transitivity (P = 0%R).
      - split; intros C.
        + rewrite C, Rabs_R0 in D. destruct (Req_dec P 0); auto. apply Rabs_pos_lt in H. lra.
        + rewrite C, Rabs_R0 in D. destruct (Req_dec (det (Z.to_nat L) A) 0); auto. apply Rabs_pos_lt in H. lra.
      - unfold P. rewrite pprod_zero, Z2Nat.id by lia. tauto. }
    destruct (dgetri_ok L HL nb G ipiv pv (repeat junk (Z.to_nat (L * nb)))) as [(Hnz & V & X & E2 & H1 & H2)|((c & Hc & Gc) & info' & E2 & _)]; auto.
    { zl. nia. }
    { apply Fac. }
    - rewrite E2. cbn [bind]. rewrite copy_out by auto. cbn [bind]. eexists; split; [reflexivity|].
      split; [apply shape_tab2; lia|]. left. split.
      + intros C. apply Z0 in C. destruct C as (c & Hc & Gc). now apply (Hnz c).
      + pose proof (inverse_from_factors L HL A G pv Fac V X Hnz H1 H2) as I.
        intros i j Hi Hj. destruct (I i j Hi Hj) as [I1 I2]. split.
        * rewrite <- I1. apply rsum_ext. intros k Hk. now rewrite ent_tab2 by lia.
        * rewrite <- I2. apply rsum_ext. intros k Hk. now rewrite ent_tab2 by lia.
    - rewrite E2. cbn [bind]. rewrite copy_out by auto. cbn [bind]. eexists; split; [reflexivity|].
      split; [apply shape_tab2; lia|]. right. split; [|split].
      + apply Z0. eauto.
      + intros (B & HB). apply (regular_of_left_inverse L HL A G pv Fac B) with (c := c); auto. intros i j Hi Hj. apply HB; auto.
      + apply (kernel_of_factors L HL A G pv Fac). eauto.
  Qed.
  (** What icov held does not matter. *)
  Lemma invert_with_overwrites nb L cov ic1 ic2 : 1 <= nb -> 0 < L -> shape L L cov -> shape L L ic1 -> shape L L ic2 ->
    invert_with sfmin junk nb cov L ic1 = invert_with sfmin junk nb cov L ic2.
  Proof.
    intros Hnb HL Sh S1 S2. unfold invert_with. rewrite copy_in by auto. cbn [bind].
    destruct (dgetrf_ok sfmin L HL nb (ent 0%R cov) (repeat 0 (Z.to_nat (L * L)))) as (G & pv & ipiv & info & E & Fac & Hz & HV).
    { zl. nia. }
    rewrite E. cbn [bind]. change (0 <? 0) with false. cbv iota. rewrite det_loop by auto. cbn [bind].
    destruct (dgetri_ok L HL nb G ipiv pv (repeat junk (Z.to_nat (L * nb)))) as [(Hnz & V & X & E2 & H1 & H2)|((c & Hc & Gc) & info' & E2 & _)]; auto.
    { zl. nia. }
    { apply Fac. }
    all: rewrite E2; cbn [bind]; now rewrite !copy_out by auto.
  Qed.
End Invert.
