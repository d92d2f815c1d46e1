(** PolyFit2. *)
From Coq Require Import Reals ZArith Lia Lra List Bool.
From Verif.Base Require Import Imp Sums RealOps Loops Matrix.
From Verif.Polyfit Require Import PolyModel PolySpec PolyMath PolyProofs GaussProofs.
Import ListNotations.
Open Scope Z_scope.

(** *** Square *)
Definition gram (nrow : Z) (x : list (list R)) (k l : Z) : R := rsum nrow (fun i => (E x i l * E x i k)%R).
Definition moment (nrow : Z) (x : list (list R)) (y : list R) (k : Z) : R := rsum nrow (fun i => (zn 0 y i * E x i k)%R).

Lemma gram_sym nrow x k l : gram nrow x k l = gram nrow x l k.
Proof. unfold gram. apply rsum_ext. intros. ring. Qed.

Lemma gram_entry nrow ncol x a k l : 1 <= nrow -> shape nrow ncol x -> shape ncol ncol a -> 0 <= l <= k -> k < ncol ->
  exists a', (a <- mset a k l 0%R ;; for_up 0 nrow (fun i a =>
        v <- mget a k l ;; p <- mget x i l ;; q <- mget x i k ;;
        a <- mset a k l (v + p * q)%R ;;
        if negb (k =? l) then v <- mget a k l ;; mset a l k v else OK a) a) = OK a' /\ shape ncol ncol a' /\
    forall r c, E a' r c = if ((r =? k) && (c =? l)) || ((r =? l) && (c =? k)) then gram nrow x k l else E a r c.
Proof.
  intros Hr Sx Sa Hl Hk. rewrite (mset_OK ncol ncol) by (auto; lia). ret.
  match goal with |- context [for_up 0 nrow ?B ?S] =>
    destruct (for_up_inv (fun i m => shape ncol ncol m /\ E m k l = gram i x k l /\ (0 < i -> E m l k = gram i x k l) /\
      forall r c, ((r =? k) && (c =? l)) || ((r =? l) && (c =? k)) = false -> E m r c = E a r c) 0 nrow B S)
      as (m & EQ & I1 & I2 & I3 & I4); [lia| | |] end.
  - split; [apply shape_mupd; auto; lia|]. unfold E. splits.
    + rewrite (ent_mupd 0%R ncol ncol) by (auto; lia). rewrite !Z.eqb_refl. cbn [andb]. unfold gram. now rewrite rsum_0 by lia.
    + lia.
    + intros r c Hrc. rewrite (ent_mupd 0%R ncol ncol) by (auto; lia). apply orb_false_iff in Hrc. destruct Hrc as (-> & _). reflexivity.
  - intros i m Hi (I1 & I2 & I3 & I4).
    rewrite (mget_OK 0%R ncol ncol m k l) by (auto; lia). ret. rewrite !(mget_OK 0%R nrow ncol x) by (auto; lia). ret. ret.
    rewrite (mset_OK ncol ncol) by (auto; lia). ret.
    fold (E m k l) (E x i l) (E x i k). rewrite I2. replace (gram i x k l + E x i l * E x i k)%R with (gram (i + 1) x k l).
    2:{ unfold gram. rewrite rsum_S by lia. reflexivity. }
    set (g := gram (i + 1) x k l).
    assert (S1 : shape ncol ncol (mupd m k l g)) by (apply shape_mupd; auto; lia).
    destruct (Z.eqb_spec k l) as [->|N]; cbn [negb].
    + eexists; split; [reflexivity|]. split; [auto|]. unfold E. splits.
      * rewrite (ent_mupd 0%R ncol ncol) by (auto; lia). now rewrite !Z.eqb_refl.
      * intros _. rewrite (ent_mupd 0%R ncol ncol) by (auto; lia). now rewrite !Z.eqb_refl.
      * intros r c Hrc. rewrite (ent_mupd 0%R ncol ncol) by (auto; lia). pose proof Hrc as Hrc'. apply orb_false_iff in Hrc.
        destruct Hrc as (-> & _). apply I4. exact Hrc'.
    + rewrite (mget_OK 0%R ncol ncol) by (auto; lia). ret. rewrite (mset_OK ncol ncol) by (auto; lia). 
      eexists; split; [reflexivity|]. split; [apply shape_mupd; auto; lia|]. unfold E.
      assert (G : ent 0%R (mupd m k l g) k l = g) by (rewrite (ent_mupd 0%R ncol ncol) by (auto; lia); now rewrite !Z.eqb_refl).
      splits.
      * rewrite (ent_mupd 0%R ncol ncol) by (auto; lia). rewrite G. destruct ((k =? l) && (l =? k)); reflexivity.
      * intros _. rewrite (ent_mupd 0%R ncol ncol) by (auto; lia). now rewrite !Z.eqb_refl.
      * intros r c Hrc. rewrite !(ent_mupd 0%R ncol ncol) by (auto; lia). pose proof Hrc as Hrc'. apply orb_false_iff in Hrc.
        destruct Hrc as (-> & ->). apply I4. exact Hrc'.
  - exists m. split; [exact EQ|]. split; [auto|]. intros r c. specialize (I3 ltac:(lia)).
    destruct ((r =? k) && (c =? l) || (r =? l) && (c =? k)) eqn:B; [|auto].
    apply orb_true_iff in B. destruct B as [B|B]; apply andb_true_iff in B; destruct B as (B1 & B2); apply Z.eqb_eq in B1, B2; subst; auto.
Qed.

Lemma square_ok nrow ncol x y : 1 <= nrow -> 0 <= ncol -> shape nrow ncol x -> zlen y = nrow ->
  exists a g, square x y (zeros2 0%R ncol ncol) (zeros ncol) nrow ncol = OK (a, g) /\ shape ncol ncol a /\ zlen g = ncol /\
    (forall r c, 0 <= r < ncol -> 0 <= c < ncol -> E a r c = gram nrow x r c) /\
    (forall k, 0 <= k < ncol -> zn 0%R g k = moment nrow x y k).
Proof.
  intros Hr Hc Sx Ly. unfold square.
  match goal with |- context [for_up 0 ncol ?B ?S] =>
    destruct (for_up_inv (fun k (s : list (list R) * list R) => let '(a, g) := s in shape ncol ncol a /\ zlen g = ncol /\
      (forall r c, 0 <= r < k -> 0 <= c < k -> E a r c = gram nrow x r c) /\
      (forall j, 0 <= j < k -> zn 0%R g j = moment nrow x y j)) 0 ncol B S) as ((a & g) & EQ & I1 & I2 & I3 & I4); [lia| | |] end.
  - cbv beta iota. splits; try (intros; lia). 
    + apply shape_repeat; lia.
    + unfold zeros. zl. lia.
  - intros k (a & g) Hk (I1 & I2 & I3 & I4).
    match goal with |- context [for_up 0 (k + 1) ?B a] =>
      destruct (for_up_inv (fun l m => shape ncol ncol m /\ (forall r c, 0 <= r < k -> 0 <= c < k -> E m r c = gram nrow x r c) /\
        (forall c, 0 <= c < l -> E m k c = gram nrow x k c /\ E m c k = gram nrow x k c)) 0 (k + 1) B a) as (m & EQ & J1 & J2 & J3); [lia| | |] end.
    + splits; auto; intros; lia.
    + intros l m Hl (J1 & J2 & J3). destruct (gram_entry nrow ncol x m k l Hr Sx J1) as (m' & EQ & S' & V); try lia.
      exists m'. split; [exact EQ|]. splits; auto.
      * intros r c Hr' Hc'. rewrite V. destruct (Z.eqb_spec r k); [lia|]. destruct (Z.eqb_spec c k); [lia|]. rewrite andb_false_r. cbn [andb orb]. auto.
      * intros c Hc'. rewrite !V. destruct (Z.eq_dec c l) as [->|N].
        -- rewrite !Z.eqb_refl. cbn [andb orb]. rewrite orb_true_r. auto.
        -- destruct (J3 c) as (K1 & K2); [lia|]. split.
           ++ destruct (Z.eqb_spec c l); [lia|]. rewrite andb_false_r. cbn [orb]. destruct (Z.eqb_spec k l) as [->|]; cbn [andb]; [|auto].
              destruct (Z.eqb_spec c l); [lia|auto].
           ++ destruct (Z.eqb_spec c l); [lia|]. rewrite orb_false_r. destruct (Z.eqb_spec k l) as [->|]; [|rewrite andb_false_r; auto].
              destruct (Z.eqb_spec c l); [lia|auto].
    + match goal with |- context [for_up 0 (k + 1) ?B a] => replace (for_up 0 (k + 1) B a) with (OK m) by (symmetry; exact EQ) end.
      ret. rewrite aset_OK by lia. ret.
      match goal with |- context [for_up 0 nrow ?B ?S] =>
        destruct (for_up_inv (fun i h => zlen h = ncol /\ zn 0%R h k = moment i x y k /\ forall j, 0 <= j -> j <> k -> zn 0%R h j = zn 0%R g j) 0 nrow B S)
        as (h & EQ2 & K1 & K2 & K3); [lia| | |] end.
      * splits; [zl; lia| |].
        -- rewrite zn_upd by lia. rewrite Z.eqb_refl. unfold moment. now rewrite rsum_0 by lia.
        -- intros j Hj Nj. rewrite zn_upd by lia. destruct (Z.eqb_spec j k); [lia|auto].
      * intros i h Hi (K1 & K2 & K3). rewrite !(aget_OK 0%R) by lia. ret. ret. rewrite (mget_OK 0%R nrow ncol) by (auto; lia). ret.
        rewrite aset_OK by lia. eexists; split; [reflexivity|]. splits; [zl; lia| |].
        -- rewrite zn_upd by lia. rewrite Z.eqb_refl, K2. unfold moment. rewrite rsum_S by lia. reflexivity.
        -- intros j Hj Nj. rewrite zn_upd by lia. destruct (Z.eqb_spec j k); [lia|auto].
      * rewrite EQ2. ret. eexists; split; [reflexivity|]. cbv beta iota. splits; auto.
        -- intros r c Hr' Hc'. destruct (Z.eq_dec r k) as [->|]; [apply J3; lia|]. destruct (Z.eq_dec c k) as [->|].
           ++ rewrite gram_sym. apply J3; lia.
           ++ apply J2; lia.
        -- intros j Hj. destruct (Z.eq_dec j k) as [->|]; [auto|]. rewrite K3 by lia. apply I4; lia.
  - exists a, g. split; [exact EQ|]. splits; auto.
Qed.

(** *** The matrix of powers *)
Lemma powers_ok x n : 1 <= n ->
  exists m, for_up 0 (zlen x) (fun i xmatr =>
      xi <- aget x i ;;
      xmatr <- mset xmatr i 0 1%R ;;
      for_up 1 n (fun j xmatr => v <- mget xmatr i (j - 1) ;; mset xmatr i j (v * xi)%R) xmatr) (zeros2 0%R (zlen x) n) = OK m /\
    shape (zlen x) n m /\ forall i j, 0 <= i < zlen x -> 0 <= j < n -> E m i j = (zn 0%R x i ^ Z.to_nat j)%R.
Proof.
  intros Hn. pose proof (zlen_nonneg x) as Lx.
  match goal with |- context [for_up 0 (zlen x) ?B ?S] =>
    destruct (for_up_inv (fun k m => shape (zlen x) n m /\ forall i j, 0 <= i < k -> 0 <= j < n -> E m i j = (zn 0%R x i ^ Z.to_nat j)%R)
      0 (zlen x) B S) as (m & EQ & I1 & I2); [lia| | |] end.
  - split; [apply shape_repeat; lia|]. intros; lia.
  - intros i m Hi (I1 & I2). rewrite (aget_OK 0%R) by lia. ret. rewrite (mset_OK (zlen x) n) by (auto; lia). ret.
    set (xi := zn 0%R x i).
    match goal with |- context [for_up 1 n ?B ?S] =>
      destruct (for_up_inv (fun c m' => shape (zlen x) n m' /\ (forall a j, a <> i -> E m' a j = E m a j) /\
         forall j, 0 <= j < c -> E m' i j = (xi ^ Z.to_nat j)%R) 1 n B S) as (m' & EQ & J1 & J2 & J3); [lia| | |] end.
    + splits; [apply shape_mupd; auto| |].
      * intros a j Na. unfold E. rewrite (ent_mupd 0%R (zlen x) n) by (auto; lia). destruct (Z.eqb_spec a i); [lia|reflexivity].
      * intros j Hj. assert (j = 0) as -> by lia. unfold E. rewrite (ent_mupd 0%R (zlen x) n) by (auto; lia). rewrite !Z.eqb_refl. reflexivity.
    + intros c m' Hc (J1 & J2 & J3). rewrite (mget_OK 0%R (zlen x) n) by (auto; lia). ret. rewrite (mset_OK (zlen x) n) by (auto; lia).
      eexists; split; [reflexivity|]. splits; [apply shape_mupd; auto| |].
      * intros a j Na. unfold E. rewrite (ent_mupd 0%R (zlen x) n) by (auto; lia). destruct (Z.eqb_spec a i); [lia|]. apply J2. auto.
      * intros j Hj. unfold E at 1. rewrite (ent_mupd 0%R (zlen x) n) by (auto; lia). rewrite Z.eqb_refl. cbn [andb].
        destruct (Z.eqb_spec j c) as [->|]; [|apply J3; lia]. fold (E m' i (c - 1)). rewrite J3 by lia.
        replace (Z.to_nat c) with (S (Z.to_nat (c - 1))) by lia. cbn [pow]. ring.
    + exists m'. split; [exact EQ|]. split; [auto|]. intros a j Ha Hj. destruct (Z.eq_dec a i) as [->|]; [apply J3; lia|].
      rewrite J2 by auto. apply I2; lia.
  - exists m. auto.
Qed.

(** *** Least squares *)
Section Fit.
  Variables (x y : list R) (n : Z) (m : list (list R)).
  Hypothesis Hn : 1 <= n.
  Hypothesis Hm : forall i j, 0 <= i < zlen x -> 0 <= j < n -> E m i j = (zn 0%R x i ^ Z.to_nat j)%R.
  Let np := zlen x.

  Definition fit (c : Z -> R) (i : Z) : R := rsum n (fun j => (c j * E m i j)%R).

  Lemma fit_poly c i : zlen c = n -> 0 <= i < np -> fit (zn 0%R c) i = poly c (zn 0%R x i).
  Proof. intros L Hi. unfold fit, poly. rewrite L. apply rsum_ext. intros j Hj. now rewrite Hm by auto. Qed.

  (** Row k of the Gram matrix applied to c is the scalar product of the fit with column k. *)
  Lemma gram_fit c k : lin n (gram np m) c k = rsum np (fun i => (fit c i * E m i k)%R).
  Proof.
    unfold lin, gram, fit. rewrite (rsum_ext n _ (fun c0 => rsum np (fun i => (c c0 * E m i c0 * E m i k)%R))).
    2:{ intros j Hj. rewrite Rmult_comm, <- rsum_scal. apply rsum_ext. intros; ring. }
    rewrite rsum_swap. apply rsum_ext. intros i Hi. rewrite Rmult_comm, <- rsum_scal. apply rsum_ext. intros; ring.
  Qed.

  Lemma fit_minus c d i : fit (fun j => c j - d j)%R i = (fit c i - fit d i)%R.
  Proof. unfold fit. rewrite <- rsum_minus. apply rsum_ext. intros; ring. Qed.

  (** Orthogonality: anything in the span is orthogonal to a vector orthogonal to all columns. *)
  Lemma span_orth (e : Z -> R) d : (forall k, 0 <= k < n -> rsum np (fun i => (e i * E m i k)%R) = 0%R) -> rsum np (fun i => (e i * fit d i)%R) = 0%R.
  Proof.
    intros H. unfold fit. rewrite (rsum_ext np _ (fun i => rsum n (fun j => (d j * (e i * E m i j))%R))).
    2:{ intros i Hi. rewrite <- rsum_scal. apply rsum_ext. intros; ring. }
    rewrite rsum_swap. apply rsum_zero. intros j Hj. rewrite rsum_scal, H by auto. ring.
  Qed.

  Lemma sum_squares_zero k f : rsum k (fun i => (f i * f i)%R) = 0%R -> forall i, 0 <= i < k -> f i = 0%R.
  Proof.
    intros H i Hi. assert (T : (f i * f i <= rsum k (fun i => f i * f i))%R) by (apply (rsum_term k (fun i => (f i * f i)%R)); auto; intros; nra).
    rewrite H in T. nra.
  Qed.

  (** A kernel vector of the Gram matrix is a polynomial vanishing at all abscissae. *)
  Lemma gram_kernel c : solves n (gram np m) (fun _ => 0%R) 0 c <-> forall i, 0 <= i < np -> fit c i = 0%R.
  Proof.
    split.
    - intros H. apply sum_squares_zero. apply span_orth. intros k Hk. rewrite <- gram_fit. rewrite H by auto. ring.
    - intros H r Hr. rewrite gram_fit. rewrite (rsum_zero np); [ring|]. intros i Hi. rewrite H by auto. ring.
  Qed.

  Lemma gram_singular : singular n (gram np m) <-> ~ distinct n x.
  Proof.
    split.
    - intros (c & S & j & Hj & Nj) (l & N & L & I). apply Nj.
      pose proof (proj1 (gram_kernel c) S) as F.
      assert (Z0 : Forall (fun v => v = 0%R) (ztab n c)).
      { apply (roots_zero l); auto.
        - assert (zlen (ztab n c) = n) by (zl; lia). unfold zlen in *. lia.
        - intros t Ht. apply I in Ht. apply (In_nth _ _ 0%R) in Ht. destruct Ht as (i & Hi & <-).
          assert (Lc : zlen (ztab n c) = n) by (zl; lia).
          specialize (F (Z.of_nat i) ltac:(unfold np, zlen; lia)). rewrite <- poly_peval.
          transitivity (fit c (Z.of_nat i)); [|exact F]. unfold poly, fit. rewrite Lc. apply rsum_ext. intros k Hk. rewrite zn_ztab by auto.
          rewrite Hm by (unfold zlen; lia). do 2 f_equal. unfold zn. destruct (Z.ltb_spec (Z.of_nat i) 0); [lia|]. now rewrite Nat2Z.id. }
      rewrite forall_zn in Z0. specialize (Z0 j). rewrite zn_ztab in Z0 by auto. apply Z0. zl. lia.
    - intros D. destruct (not_distinct_poly n x ltac:(lia) D) as (c & L & (v & Iv & Nv) & R).
      exists (zn 0%R c). split.
      + apply gram_kernel. intros i Hi. rewrite fit_poly by auto. rewrite poly_peval. apply R.
        unfold zn. destruct (Z.ltb_spec i 0); [lia|]. apply nth_In. unfold np, zlen in Hi. lia.
      + apply (In_nth _ _ 0%R) in Iv. destruct Iv as (i & Hi & Ei). exists (Z.of_nat i). split; [unfold zlen in L; lia|].
        unfold zn. destruct (Z.ltb_spec (Z.of_nat i) 0); [lia|]. rewrite Nat2Z.id, Ei. exact Nv.
  Qed.

  Lemma normal_iff c : solves n (gram np m) (moment np m y) 1 c <->
    forall k, 0 <= k < n -> rsum np (fun i => ((fit c i - zn 0 y i) * E m i k)%R) = 0%R.
  Proof.
    unfold solves. split; intros H k Hk; specialize (H k Hk).
    - rewrite gram_fit in H. unfold moment in H. rewrite Rmult_1_l in H.
      rewrite (rsum_ext np _ (fun i => (fit c i * E m i k - zn 0 y i * E m i k)%R)) by (intros; ring). rewrite rsum_minus. lra.
    - rewrite gram_fit. unfold moment. rewrite Rmult_1_l.
      rewrite (rsum_ext np _ (fun i => (fit c i * E m i k - zn 0 y i * E m i k)%R)) in H by (intros; ring). rewrite rsum_minus in H. lra.
  Qed.

  Lemma residual_fit c : zlen c = n -> residual x y c = rsum np (fun i => ((fit (zn 0%R c) i - zn 0 y i) * (fit (zn 0%R c) i - zn 0 y i))%R).
  Proof. intros L. unfold residual. apply rsum_ext. intros i Hi. now rewrite fit_poly. Qed.

  (** Pythagoras. *)
  Lemma residual_split c d : zlen c = n -> zlen d = n ->
    (forall k, 0 <= k < n -> rsum np (fun i => ((fit (zn 0%R c) i - zn 0 y i) * E m i k)%R) = 0%R) ->
    residual x y d = (residual x y c + rsum np (fun i => (fit (fun j => zn 0 d j - zn 0 c j) i * fit (fun j => zn 0 d j - zn 0 c j) i)))%R.
  Proof.
    intros Lc Ld N. rewrite !residual_fit by auto.
    pose proof (span_orth (fun i => fit (zn 0%R c) i - zn 0 y i)%R (fun j => zn 0 d j - zn 0 c j)%R N) as O.
    rewrite (rsum_ext np (fun i => ((fit (zn 0 d) i - zn 0 y i) * (fit (zn 0 d) i - zn 0 y i))%R) (fun i =>
      ((fit (zn 0 c) i - zn 0 y i) * (fit (zn 0 c) i - zn 0 y i) + fit (fun j => zn 0 d j - zn 0 c j) i * fit (fun j => zn 0 d j - zn 0 c j) i +
       2 * ((fit (zn 0 c) i - zn 0 y i) * fit (fun j => zn 0 d j - zn 0 c j) i))%R)).
    2:{ intros i Hi. rewrite (fit_minus (zn 0%R d) (zn 0%R c)). ring. }
    rewrite !rsum_plus, rsum_scal, O. ring.
  Qed.
End Fit.

(** Sum of squares about the mean. *)
Lemma total_value y : 1 <= zlen y ->
  (rsum (zlen y) (fun i => zn 0 y i * zn 0 y i) - rsum (zlen y) (zn 0%R y) * rsum (zlen y) (zn 0%R y) / IZR (zlen y) = total y)%R.
Proof.
  intros H. unfold total. set (k := zlen y) in *. set (s := rsum k (zn 0%R y)).
  assert (K : IZR k <> 0%R) by (apply not_0_IZR; lia).
  rewrite (rsum_ext k (fun i => ((zn 0 y i - s / IZR k) * (zn 0 y i - s / IZR k))%R)
     (fun i => (zn 0 y i * zn 0 y i - 2 * (s / IZR k) * zn 0 y i + s / IZR k * (s / IZR k))%R)) by (intros; ring).
  rewrite rsum_plus, rsum_minus, rsum_scal. fold s. rewrite rsum_const by lia. field. auto.
Qed.

(** The mean is a polynomial of the kind fitted. *)
Lemma residual_mean x y n : 1 <= n -> zlen x = zlen y -> 
  residual x y ((rsum (zlen y) (zn 0%R y) / IZR (zlen y))%R :: repeat 0%R (Z.to_nat (n - 1))) = total y.
Proof.
  intros Hn L. unfold residual, total. rewrite L. set (mu := (_ / _)%R).
  apply rsum_ext. intros i Hi. assert (P : forall t, poly (mu :: repeat 0%R (Z.to_nat (n - 1))) t = mu).
  { intros t. rewrite poly_peval. cbn [peval]. rewrite (peval_app [] (Z.to_nat (n - 1)) t : peval (repeat 0%R _) t = 0%R). ring. }
  rewrite P. ring.
Qed.

Theorem polyfit2_ok x y coefs : 1 <= zlen coefs -> 2 <= zlen x -> zlen y = zlen x ->
  exists r c, polyfit2 x y coefs = OK (r, c) /\
    (~ distinct (zlen coefs) x -> r = (-1)%R /\ c = coefs) /\
    (distinct (zlen coefs) x -> zlen c = zlen coefs /\
       (forall k, 0 <= k < zlen coefs -> rsum (zlen x) (fun i => ((poly c (zn 0 x i) - zn 0 y i) * zn 0 x i ^ Z.to_nat k)%R) = 0%R) /\
       (forall d, zlen d = zlen coefs -> (residual x y c <= residual x y d)%R /\ (residual x y d = residual x y c -> d = c)) /\
       (total y = 0 -> r = 1)%R /\ (total y <> 0 -> r = sqrt (1 - residual x y c / total y))%R /\ (0 <= r <= 1)%R).
Proof.
  intros Hc Hx Hy. unfold polyfit2. set (n := zlen coefs) in *.
  destruct (Z.ltb_spec n 1); [lia|]. destruct (Z.ltb_spec (zlen x) 2); [lia|]. destruct (Z.eqb_spec (zlen x) (zlen y)); [|lia]. cbn [negb].
  destruct (powers_ok x n Hc) as (m & -> & Sm & Vm). ret.
  destruct (square_ok (zlen x) n m y) as (a & g & -> & Sa & Lg & Va & Vg); auto; try lia. ret.
  assert (Gz : (1 <= gram (zlen x) m 0 0)%R).
  { unfold gram. rewrite (rsum_ext (zlen x) _ (fun _ => 1%R)).
    - rewrite rsum_const by lia. rewrite Rmult_1_r. apply IZR_le. lia.
    - intros i Hi. rewrite Vm by lia. cbn. ring. }
  destruct (gauss_jordan_ok n a g coefs) as (o & -> & O); auto.
  { rewrite Va by lia. lra. }
  ret.
  assert (Sg : singular n (E a) <-> ~ distinct n x).
  { rewrite <- (gram_singular x n m Hc Vm). unfold singular. split; intros (v & Sv & Nv); exists v; (split; [|exact Nv]);
    (eapply solves_ext; [| |exact Sv]); auto; intros r c Hr' Hc'; rewrite Va by auto; reflexivity. }
  destruct o as [c|].
  - destruct O as (Lc & Sol & Ns).
    assert (Dx : distinct n x) by (destruct (distinct_dec n x) as [|D]; [lia|assumption|]; exfalso; apply Ns, Sg, D).
    assert (No : forall k, 0 <= k < n -> rsum (zlen x) (fun i => ((fit n m (zn 0%R c) i - zn 0 y i) * E m i k)%R) = 0%R).
    { apply (normal_iff x y n m (zn 0%R c)). eapply solves_ext; [| |apply Sol; reflexivity].
      - intros r k Hr Hk. now rewrite Va.
      - intros r Hr. now rewrite Vg. }
    match goal with |- context [for_up 0 (zlen x) ?B ?S] =>
      destruct (for_up_inv (fun i (s : R * R * R) => let '(srs, sy, sy2) := s in
        srs = rsum i (fun i => ((fit n m (zn 0%R c) i - zn 0 y i) * (fit n m (zn 0%R c) i - zn 0 y i))%R) /\
        sy = rsum i (zn 0%R y) /\ sy2 = rsum i (fun i => (zn 0 y i * zn 0 y i)%R)) 0 (zlen x) B S) as (((srs & sy) & sy2) & EQ & I1 & I2 & I3); [lia| | |] end.
    { cbv beta iota. rewrite !rsum_0 by lia. auto. }
    { intros i ((srs & sy) & sy2) Hi (I1 & I2 & I3). rewrite (aget_OK 0%R) by lia. ret.
      rewrite (for_up_fsum 0%R Rplus n _ (fun j => (zn 0 c j * E m i j)%R)).
      2: lia.
      2:{ intros j acc Hj. rewrite (aget_OK 0%R) by lia. ret. rewrite (mget_OK 0%R (zlen x) n) by (auto; lia). ret. reflexivity. }
      ret. eexists; split; [reflexivity|]. cbv beta iota. rewrite !rsum_S by lia. rewrite <- I1, <- I2, <- I3. splits; reflexivity. }
    match goal with |- context [for_up 0 (zlen x) ?B ?S] => replace (for_up 0 (zlen x) B S) with (OK (srs, sy, sy2)) by (symmetry; exact EQ) end.
    ret. clear EQ. cbv zeta.
    rewrite <- (residual_fit x y n m Vm c Lc) in I1. subst srs sy sy2.
    pose proof (total_value y ltac:(lia)) as TV. rewrite Hy in TV. rewrite TV. clear TV.
    assert (Min : forall d, zlen d = n -> (residual x y c <= residual x y d)%R /\ (residual x y d = residual x y c -> d = c)).
    { intros d Ld. pose proof (residual_split x y n m Vm c d Lc Ld No) as P.
      assert (Q : (0 <= rsum (zlen x) (fun i => fit n m (fun j => zn 0 d j - zn 0 c j) i * fit n m (fun j => zn 0 d j - zn 0 c j) i))%R).
      { apply rsum_nonneg. intros i Hi. nra. }
      split; [lra|]. intros Eq. assert (Z0 : (rsum (zlen x) (fun i => fit n m (fun j => zn 0 d j - zn 0 c j) i * fit n m (fun j => zn 0 d j - zn 0 c j) i) = 0)%R) by lra.
      pose proof (sum_squares_zero (zlen x) _ Z0) as F.
      pose proof (proj2 (gram_kernel x n m (fun j => zn 0 d j - zn 0 c j)%R) F) as K.
      apply (zn_ext 0%R); [lia|]. intros i Hi.
      destruct (Req_dec (zn 0%R d i) (zn 0%R c i)) as [|Ne]; [assumption|]. exfalso. apply (proj1 (gram_singular x n m Hc Vm)); auto.
      exists (fun j => zn 0 d j - zn 0 c j)%R. split; [exact K|]. exists i. split; [lia|]. lra. }
    assert (Tn : (0 <= total y)%R) by (unfold total; apply rsum_nonneg; intros i Hi; apply Rle_0_sqr).
    assert (Rn : (0 <= residual x y c)%R) by (unfold residual; apply rsum_nonneg; intros i Hi; apply Rle_0_sqr).
    assert (Rt : (residual x y c <= total y)%R).
    { rewrite <- (residual_mean x y n) by (auto; lia). apply Min. rewrite zlen_cons, zlen_repeat. lia. }
    do 2 eexists; split; [reflexivity|]. split; [intros D; exfalso; exact (D Dx)|]. intros _. split; [auto|]. split.
    { intros k Hk. etransitivity; [|exact (No k Hk)]. apply rsum_ext. intros i Hi. rewrite (fit_poly x n m Vm) by auto. rewrite Vm by auto. reflexivity. }
    split; [exact Min|].
    destruct (Reqb_spec (total y) 0) as [T0|T0]; cbn [negb].
    + rewrite T0. destruct (Rleb_spec 1 0); [lra|]. rewrite Rminus_0_r, sqrt_1. splits; intros; lra.
    + assert (Q : (0 <= residual x y c / total y <= 1)%R).
      { assert (0 < total y)%R by lra. split; [apply Rmult_le_pos; [lra|]; apply Rlt_le, Rinv_0_lt_compat; lra|]. apply Rmult_le_reg_r with (total y); [auto|].
        unfold Rdiv. rewrite Rmult_assoc, Rinv_l by auto. lra. }
      destruct (Rleb_spec 1 (residual x y c / total y)).
      * assert (residual x y c / total y = 1)%R as -> by lra. rewrite (Rminus_diag_eq 1 1 eq_refl), sqrt_0. splits; intros; lra.
      * splits; try (intros; lra); try tauto; [apply sqrt_pos|]. rewrite <- sqrt_1 at 2. apply sqrt_le_1; lra.
  - do 2 eexists; split; [reflexivity|]. split; [auto|]. intros D. exfalso. apply Sg in O. auto.
Qed.

Theorem polyfit2_reject x y coefs : zlen coefs < 1 \/ zlen x < 2 \/ zlen y <> zlen x -> polyfit2 x y coefs = OK (0%R, coefs).
Proof.
  intros H. unfold polyfit2. destruct (Z.ltb_spec (zlen coefs) 1); [reflexivity|]. destruct (Z.ltb_spec (zlen x) 2); [reflexivity|].
  destruct (Z.eqb_spec (zlen x) (zlen y)); [lia|reflexivity].
Qed.
