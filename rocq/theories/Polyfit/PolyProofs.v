(** Gauss-Jordan elimination. *)
From Coq Require Import Reals ZArith Lia Lra List Bool.
From Verif.Base Require Import Imp Sums RealOps Loops Matrix.
From Verif.Polyfit Require Import PolyModel PolySpec PolyMath.
Import ListNotations.
Open Scope Z_scope.

(** *** Matrix updates *)
Definition mupd {A} (m : list (list A)) (i j : Z) (v : A) : list (list A) :=
  upd m (Z.to_nat i) (upd (zn [] m i) (Z.to_nat j) v).

Lemma mset_OK {A} n k (m : list (list A)) i j v : shape n k m -> 0 <= i < n -> 0 <= j < k -> mset m i j v = OK (mupd m i j v).
Proof.
  intros [L R] Hi Hj. unfold mset, mupd. rewrite (aget_OK []) by lia. ret.
  rewrite aset_OK by (rewrite R; lia). ret. now rewrite aset_OK by lia.
Qed.
Lemma shape_mupd {A} n k (m : list (list A)) i j v : shape n k m -> 0 <= i < n -> shape n k (mupd m i j v).
Proof.
  intros [L R] Hi. unfold mupd. split; [rewrite zlen_upd; auto|]. intros a Ha. rewrite zn_upd by lia.
  destruct (Z.eqb_spec a i) as [->|]; [rewrite zlen_upd|]; auto.
Qed.
Lemma zn_upd_any {A} (d : A) l i v j : 0 <= i < zlen l -> zn d (upd l (Z.to_nat i) v) j = if j =? i then v else zn d l j.
Proof.
  intros Hi. destruct (Z.lt_ge_cases j 0) as [N|N]; [|apply zn_upd; lia].
  destruct (Z.eqb_spec j i); [lia|]. now rewrite !zn_out by lia.
Qed.
Lemma ent_mupd {A} (d : A) n k (m : list (list A)) i j v a c : shape n k m -> 0 <= i < n -> 0 <= j < k -> 
  ent d (mupd m i j v) a c = if (a =? i) && (c =? j) then v else ent d m a c.
Proof.
  intros [L R] Hi Hj. unfold mupd, ent. rewrite zn_upd_any by lia. destruct (Z.eqb_spec a i) as [->|]; cbn [andb]; [|reflexivity].
  rewrite zn_upd_any by (rewrite R; lia). destruct (Z.eqb_spec c j); reflexivity.
Qed.

Lemma row_loop {A} (d : A) n k (m0 : list (list A)) r hi body (g : Z -> A) :
  0 <= r < n -> 0 <= hi <= k -> shape n k m0 ->
  (forall c m, 0 <= c < hi -> shape n k m ->
     (forall a b, ent d m a b = if (a =? r) && (0 <=? b) && (b <? c) then g b else ent d m0 a b) -> body c m = mset m r c (g c)) ->
  exists m, for_up 0 hi body m0 = OK m /\ shape n k m /\
    (forall a b, ent d m a b = if (a =? r) && (0 <=? b) && (b <? hi) then g b else ent d m0 a b).
Proof.
  intros Hr Hh S0 Hb.
  destruct (for_up_inv (fun c m => shape n k m /\
    (forall a b, ent d m a b = if (a =? r) && (0 <=? b) && (b <? c) then g b else ent d m0 a b)) 0 hi body m0) as (m & E & S & V).
  - lia.
  - split; [auto|]. intros a b. destruct (Z.leb_spec 0 b), (Z.ltb_spec b 0); try lia; now rewrite ?andb_false_r.
  - intros c m Hc (S & V). rewrite Hb by auto. rewrite (mset_OK n k) by (auto; lia). eexists; split; [reflexivity|].
    split; [apply shape_mupd; auto|]. intros a b. rewrite (ent_mupd d n k) by (auto; lia). rewrite V.
    destruct (Z.eqb_spec a r); cbn [andb]; [|reflexivity].
    destruct (Z.eqb_spec b c) as [->|].
    + destruct (Z.leb_spec 0 c); [|lia]. destruct (Z.ltb_spec c (c + 1)); [reflexivity|lia].
    + destruct (Z.leb_spec 0 b); [|reflexivity]. destruct (Z.ltb_spec b c), (Z.ltb_spec b (c + 1)); try lia; reflexivity.
  - exists m. auto.
Qed.

(** *** Exchange, division and reduction of rows *)
Lemma swap_loop n k (m0 : list (list R)) p q hi : 0 <= p < n -> 0 <= q < n -> p <> q -> 0 <= hi <= k -> shape n k m0 ->
  exists m, for_up 0 hi (fun c m => mswap m p c q c) m0 = OK m /\ shape n k m /\
    (forall a b, 0 <= b < hi -> ent 0%R m a b = swapf p q (fun a => ent 0%R m0 a b) a) /\
    (forall a b, hi <= b -> ent 0%R m a b = ent 0%R m0 a b).
Proof.
  intros Hp Hq N Hh S0.
  destruct (for_up_inv (fun c m => shape n k m /\
    (forall a b, 0 <= b < c -> ent 0%R m a b = swapf p q (fun a => ent 0%R m0 a b) a) /\
    (forall a b, c <= b -> ent 0%R m a b = ent 0%R m0 a b)) 0 hi (fun c m => mswap m p c q c) m0) as (m & E & S & V1 & V2).
  - lia.
  - splits; auto. intros; lia.
  - intros c m Hc (S & V1 & V2). unfold mswap. rewrite !(mget_OK 0%R n k) by (auto; lia). ret. ret.
    rewrite (mset_OK n k) by (auto; lia). ret.
    assert (S' : shape n k (mupd m p c (ent 0%R m q c))) by (apply shape_mupd; auto).
    rewrite (mset_OK n k) by (auto; lia). eexists; split; [reflexivity|].
    splits; [apply shape_mupd; auto| |]; intros a b Hb; rewrite !(ent_mupd 0%R n k) by (auto; lia).
    + unfold swapf. destruct (Z.eqb_spec b c) as [->|].
      * rewrite !andb_true_r. rewrite !V2 by lia. destruct (Z.eqb_spec a q), (Z.eqb_spec a p); subst; try lia; try reflexivity.
      * rewrite !andb_false_r. rewrite V1 by lia. reflexivity.
    + destruct (Z.eqb_spec b c); [lia|]. rewrite !andb_false_r. apply V2. lia.
  - exists m. auto.
Qed.

Definition E (m : list (list R)) (a c : Z) : R := ent 0%R m a c.

Lemma swap_rows_ok n b w p q : 1 <= n -> shape n n b -> shape n n w -> 0 <= p < n -> 0 <= q < n ->
  exists b' w', swap_rows n 1 p q b w = OK (b', w') /\ shape n n b' /\ shape n n w' /\
    (forall r c, 0 <= c < n -> E b' r c = swapf p q (E b) r c) /\ (forall r, E w' r 0 = swapf p q (fun r => E w r 0) r).
Proof.
  intros Hn Sb Sw Hp Hq. unfold swap_rows. destruct (Z.eqb_spec p q) as [->|N]; cbn [negb].
  - exists b, w. splits; auto; intros; unfold swapf; destruct (Z.eqb_spec r q) as [->|]; auto.
  - destruct (swap_loop n n b p q n) as (b' & E1 & S1 & V1 & _); auto; try lia. rewrite E1. ret.
    destruct (swap_loop n n w p q 1) as (w' & E2 & S2 & V2 & _); auto; try lia. rewrite E2. ret.
    exists b', w'. splits; auto.
    + intros r c Hc. unfold E. rewrite V1 by lia. unfold swapf. destruct (r =? p), (r =? q); reflexivity.
    + intros r. unfold E. rewrite V2 by lia. reflexivity.
Qed.

Lemma divide_row_ok n b w q : 1 <= n -> shape n n b -> shape n n w -> 0 <= q < n ->
  exists b' w', divide_row n 1 q b w = OK (b', w') /\ shape n n b' /\ shape n n w' /\
    (forall r c, 0 <= c < n -> E b' r c = if r =? q then ((if (c =? q)%Z then 1 else E b q c) / E b q q)%R else E b r c) /\
    (forall r, E w' r 0 = if r =? q then (E w q 0 / E b q q)%R else E w r 0).
Proof.
  intros Hn Sb Sw Hq. unfold divide_row. rewrite (mget_OK 0%R n n) by (auto; lia). ret.
  rewrite (mset_OK n n) by (auto; lia). ret.
  assert (S1 : shape n n (mupd b q q 1%R)) by (apply shape_mupd; auto).
  fold (E b q q). set (pv := E b q q).
  destruct (row_loop 0%R n n (mupd b q q 1%R) q n (fun m b => v <- mget b q m ;; mset b q m (v / pv)%R)
    (fun c => (if (c =? q)%Z then 1 else E b q c) / pv)%R) as (b' & E1 & S2 & V1); auto; try lia.
  { intros c m Hc Sm V. rewrite (mget_OK 0%R n n) by (auto; lia). ret. rewrite V.
    rewrite Z.ltb_irrefl, andb_false_r. rewrite (ent_mupd 0%R n n) by auto. rewrite Z.eqb_refl. cbn [andb].
    unfold E. destruct (c =? q); reflexivity. }
  rewrite E1. ret.
  destruct (row_loop 0%R n n w q 1 (fun m w => v <- mget w q m ;; mset w q m (v / pv)%R)
    (fun c => E w q c / pv)%R) as (w' & E2 & S3 & V2); auto; try lia.
  { intros c m Hc Sm V. rewrite (mget_OK 0%R n n) by (auto; lia). ret. rewrite V.
    rewrite Z.ltb_irrefl, andb_false_r. reflexivity. }
  rewrite E2. ret. exists b', w'. splits; auto.
  - intros r c Hc. unfold E at 1. rewrite V1. destruct (Z.leb_spec 0 c); [|lia]. destruct (Z.ltb_spec c n); [|lia]. rewrite !andb_true_r.
    destruct (Z.eqb_spec r q) as [->|]; [reflexivity|]. rewrite (ent_mupd 0%R n n) by auto. destruct (Z.eqb_spec r q); [lia|]. reflexivity.
  - intros r. unfold E at 1. rewrite V2. cbn [Z.leb Z.ltb Z.compare]. rewrite !andb_true_r. destruct (Z.eqb_spec r q) as [->|]; reflexivity.
Qed.

Lemma reduce_rows_ok n b w q : 1 <= n -> shape n n b -> shape n n w -> 0 <= q < n ->
  exists b' w', reduce_rows n 1 q b w = OK (b', w') /\ shape n n b' /\ shape n n w' /\
    (forall r c, 0 <= r < n -> 0 <= c < n ->
       E b' r c = if r =? q then E b q c else ((if (c =? q)%Z then 0 else E b r c) - E b q c * E b r q)%R) /\
    (forall r, 0 <= r < n -> E w' r 0 = if r =? q then E w q 0 else (E w r 0 - E w q 0 * E b r q)%R).
Proof.
  intros Hn Sb Sw Hq. unfold reduce_rows.
  match goal with |- context [for_up 0 n ?B ?S] =>
    destruct (for_up_inv (fun i (x : list (list R) * list (list R)) => let '(b', w') := x in shape n n b' /\ shape n n w' /\
      (forall r c, i <= r \/ r = q -> E b' r c = E b r c) /\ (forall r, i <= r \/ r = q -> E w' r 0 = E w r 0) /\
      (forall r c, 0 <= r < i -> r <> q -> 0 <= c < n -> E b' r c = ((if (c =? q)%Z then 0 else E b r c) - E b q c * E b r q)%R) /\
      (forall r, 0 <= r < i -> r <> q -> E w' r 0 = (E w r 0 - E w q 0 * E b r q)%R)) 0 n B S)
      as ((b' & w') & EQ & I1 & I2 & I3 & I4 & I5 & I6); [lia| | |] end.
  - splits; auto; intros; lia.
  - intros i (b1 & w1) Hi (I1 & I2 & I3 & I4 & I5 & I6). destruct (Z.eqb_spec i q) as [->|N]; cbn [negb].
    + eexists; split; [reflexivity|]. cbv beta iota. splits; auto; intros; first [apply I3; lia|apply I4; lia|apply I5; lia|apply I6; lia].
    + rewrite (mget_OK 0%R n n) by (auto; lia). ret. rewrite (mset_OK n n) by (auto; lia). ret.
      assert (S1 : shape n n (mupd b1 i q 0%R)) by (apply shape_mupd; auto).
      fold (E b1 i q). rewrite (I3 i q) by lia. set (t := E b i q).
      destruct (row_loop 0%R n n (mupd b1 i q 0%R) i n
        (fun m b => v <- mget b i m ;; u <- mget b q m ;; mset b i m (v - u * t)%R)
        (fun c => (if (c =? q)%Z then 0 else E b i c) - E b q c * t)%R) as (b2 & E1 & S2 & V1); auto; try lia.
      { intros c m Hc Sm V. rewrite !(mget_OK 0%R n n) by (auto; lia). ret. ret. rewrite !V.
        rewrite Z.ltb_irrefl, !andb_false_r. destruct (Z.eqb_spec q i); [lia|]. cbn [andb].
        rewrite !(ent_mupd 0%R n n) by auto. destruct (Z.eqb_spec q i); [lia|]. rewrite Z.eqb_refl. cbn [andb].
        fold (E b1 i c) (E b1 q c). rewrite !I3 by lia. reflexivity. }
      rewrite E1. ret.
      destruct (row_loop 0%R n n w1 i 1 (fun m w => v <- mget w i m ;; u <- mget w q m ;; mset w i m (v - u * t)%R)
        (fun c => E w1 i c - E w1 q c * t)%R) as (w2 & E2 & S3 & V2); auto; try lia.
      { intros c m Hc Sm V. rewrite !(mget_OK 0%R n n) by (auto; lia). ret. ret. rewrite !V.
        rewrite Z.ltb_irrefl, !andb_false_r. destruct (Z.eqb_spec q i); [lia|]. reflexivity. }
      rewrite E2. ret. eexists; split; [reflexivity|]. cbv beta iota.
      assert (W1 : forall r c, r <> i -> E b2 r c = E b1 r c).
      { intros r c Hr. unfold E. rewrite V1. destruct (Z.eqb_spec r i); [lia|]. cbn [andb].
        rewrite (ent_mupd 0%R n n) by auto. destruct (Z.eqb_spec r i); [lia|]. reflexivity. }
      assert (W2 : forall r, r <> i -> E w2 r 0 = E w1 r 0).
      { intros r Hr. unfold E. rewrite V2. destruct (Z.eqb_spec r i); [lia|]. reflexivity. }
      splits; auto.
      * intros r c Hr. rewrite W1 by lia. apply I3. lia.
      * intros r Hr. rewrite W2 by lia. apply I4. lia.
      * intros r c Hr Nr Hc. destruct (Z.eq_dec r i) as [->|].
        -- unfold E at 1. rewrite V1, Z.eqb_refl. destruct (Z.leb_spec 0 c); [|lia]. destruct (Z.ltb_spec c n); [|lia]. reflexivity.
        -- rewrite W1 by lia. apply I5; lia.
      * intros r Hr Nr. destruct (Z.eq_dec r i) as [->|].
        -- unfold E at 1. rewrite V2, Z.eqb_refl. cbn [andb Z.leb Z.ltb Z.compare]. rewrite !I4 by lia. reflexivity.
        -- rewrite W2 by lia. apply I6; lia.
  - exists b', w'. split; [exact EQ|]. splits; auto.
    + intros r c Hr Hc. destruct (Z.eqb_spec r q) as [->|]; [apply I3; lia|apply I5; lia].
    + intros r Hr. destruct (Z.eqb_spec r q) as [->|]; [apply I4; lia|apply I6; lia].
Qed.

(** All three together. *)
Lemma step_rows_ok n b w p q : 1 <= n -> shape n n b -> shape n n w -> 0 <= p < n -> 0 <= q < n ->
  exists b1 w1 b2 w2 b' w', swap_rows n 1 p q b w = OK (b1, w1) /\ divide_row n 1 q b1 w1 = OK (b2, w2) /\
    reduce_rows n 1 q b2 w2 = OK (b', w') /\ shape n n b' /\ shape n n w' /\
    (E b p q <> 0%R ->
     (forall r c, 0 <= r < n -> 0 <= c < n -> c <> q -> E b' r c = elim q (swapf p q (E b)) r c) /\
     (forall r, 0 <= r < n -> E w' r 0 = elimw q (swapf p q (E b)) (swapf p q (fun r => E w r 0)) r)).
Proof.
  intros Hn Sb Sw Hp Hq.
  destruct (swap_rows_ok n b w p q) as (b1 & w1 & E1 & S1 & T1 & V1 & W1); auto.
  destruct (divide_row_ok n b1 w1 q) as (b2 & w2 & E2 & S2 & T2 & V2 & W2); auto.
  destruct (reduce_rows_ok n b2 w2 q) as (b3 & w3 & E3 & S3 & T3 & V3 & W3); auto.
  exists b1, w1, b2, w2, b3, w3. do 5 (split; [assumption|]). intros Nz. split.
  - intros r c Hr Hc Nc. rewrite V3 by auto. unfold elim. rewrite <- !V1 by auto. rewrite !V2 by auto.
    rewrite Z.eqb_refl. destruct (Z.eqb_spec c q); [lia|]. destruct (Z.eqb_spec r q); [reflexivity|]. reflexivity.
  - intros r Hr. rewrite W3 by auto. unfold elimw. rewrite <- !V1, <- !W1 by auto. rewrite !W2, !V2 by auto.
    rewrite Z.eqb_refl. destruct (Z.eqb_spec r q); reflexivity.
Qed.

(** *** The search *)
Definition ix (index : list (list Z)) (k : Z) : Z := ent 0 index k 2.

(** Nothing has been counted twice. *)
Definition good_index (n : Z) (index : list (list Z)) : Prop := forall k, 0 <= k < n -> ix index k = -1 \/ ix index k = 0.

Lemma search_good n b index ir ic : 1 <= n -> shape n n b -> shape n 3 index -> good_index n index ->
  exists big p q, pivot_search n b index ir ic = OK (Some (big, p, q)) /\
    ((0 <= p < n /\ 0 <= q < n /\ ix index p = -1 /\ ix index q = -1 /\ E b p q <> 0%R) \/
     (p = ir /\ q = ic /\ forall r c, 0 <= r < n -> 0 <= c < n -> ix index r = -1 -> ix index c = -1 -> E b r c = 0%R)).
Proof.
  intros Hn Sb Si G. unfold pivot_search.
  set (best := fun (seen : Z -> Z -> Prop) (st : option (R * Z * Z)) => exists big p q, st = Some (big, p, q) /\ (0 <= big)%R /\
     (forall r c, 0 <= r < n -> 0 <= c < n -> seen r c -> ix index r = -1 -> ix index c = -1 -> (Rabs (E b r c) <= big)%R) /\
     ((0 <= p < n /\ 0 <= q < n /\ ix index p = -1 /\ ix index q = -1 /\ Rabs (E b p q) = big /\ (0 < big)%R) \/ (p = ir /\ q = ic /\ big = 0%R))).
  match goal with |- context [for_up 0 n ?B ?S] =>
    destruct (for_up_inv (fun j st => best (fun r c => r < j) st) 0 n B S) as (st & EQ & big & p & q & -> & B0 & B1 & B2); [lia| | |] end.
  - exists 0%R, ir, ic. splits; auto; try lra. intros; lia.
  - intros j st Hj (big & p & q & -> & B0 & B1 & B2). rewrite (mget_OK 0 n 3) by (auto; lia). ret. fold (ix index j).
    destruct (Z.eqb_spec (ix index j) 0) as [Ej|Nj]; cbn [negb].
    + eexists; split; [reflexivity|]. exists big, p, q. splits; auto. intros r c Hr Hc Hs I1 I2.
      destruct (Z.eq_dec r j) as [->|]; [lia|]. apply B1; auto; lia.
    + assert (Ij : ix index j = -1) by (destruct (G j Hj); lia).
      match goal with |- context [for_up 0 n ?B ?S] =>
        destruct (for_up_inv (fun k st => best (fun r c => r < j \/ r = j /\ c < k) st) 0 n B S) as (st & EQ & Bst); [lia| | |] end.
      * exists big, p, q. splits; auto. intros r c Hr Hc Hs. apply B1; auto; lia.
      * clear big p q B0 B1 B2. intros k st Hk (big & p & q & -> & B0 & B1 & B2).
        rewrite (mget_OK 0 n 3) by (auto; lia). ret. fold (ix index k).
        destruct (G k Hk) as [Ik|Ik]; rewrite Ik; cbn [Z.ltb Z.compare].
        -- rewrite (mget_OK 0%R n n) by (auto; lia). ret. fold (E b j k). destruct (Rltb_spec big (Rabs (E b j k))) as [L|L].
           ++ eexists; split; [reflexivity|]. exists (Rabs (E b j k)), j, k. splits; auto; try lra.
              ** intros r c Hr Hc Hs I1 I2. destruct (Z.eq_dec r j) as [->|]; [destruct (Z.eq_dec c k) as [->|]|].
                 --- lra.
                 --- apply Rle_trans with big; [apply B1; auto; lia|lra].
                 --- apply Rle_trans with big; [apply B1; auto; lia|lra].
              ** left. splits; auto; try lia. lra.
           ++ eexists; split; [reflexivity|]. exists big, p, q. splits; auto.
              intros r c Hr Hc Hs I1 I2. destruct (Z.eq_dec r j) as [->|]; [destruct (Z.eq_dec c k) as [->|]|]; auto; apply B1; auto; lia.
        -- eexists; split; [reflexivity|]. exists big, p, q. splits; auto.
           intros r c Hr Hc Hs I1 I2. destruct (Z.eq_dec c k) as [->|]; [lia|]. apply B1; auto; lia.
      * exists st. split; [exact EQ|]. destruct Bst as (big' & p' & q' & -> & C0 & C1 & C2).
        exists big', p', q'. splits; auto. intros r c Hr Hc Hs. apply C1; auto; lia.
  - exists big, p, q. split; [exact EQ|]. destruct B2 as [(P & Q & P' & Q' & A & Bp)|(P & Q & Bz)].
    + left. splits; auto; try lia. intros Z0. rewrite Z0, Rabs_R0 in A. lra.
    + right. splits; auto. intros r c Hr Hc I1 I2. pose proof (B1 r c Hr Hc ltac:(lia) I1 I2) as L. subst big.
      pose proof (Rabs_pos (E b r c)). destruct (Req_dec (E b r c) 0) as [|Ne]; [assumption|].
      pose proof (Rabs_pos_lt _ Ne). lra.
Qed.

(** Some column has been counted twice: "matrix is singular". *)
Lemma search_bad n b index ir ic k0 : shape n n b -> shape n 3 index -> 0 <= k0 < n -> 0 < ix index k0 ->
  pivot_search n b index ir ic = OK None.
Proof.
  intros Sb Si H0 I0. unfold pivot_search.
  assert (IN : forall j st0, 0 <= j < n -> exists st, for_up 0 n (fun k st =>
          match st with
          | None => OK None
          | Some (big, irow, icol) =>
            ik <- mget index k 2 ;;
            if 0 <? ik then OK None
            else if ik <? 0 then
              v <- mget b j k ;;
              if Rltb big (Rabs v) then OK (Some (Rabs v, j, k)) else OK st
            else OK st
          end) st0 = OK st /\ st = None).
  { intros j st0 Hj.
    match goal with |- context [for_up 0 n ?B ?S] =>
      destruct (for_up_inv (fun k st => k0 < k -> st = None) 0 n B S) as (st & EQ & Bst); [lia| | |] end.
    - intros; lia.
    - intros k st Hk Hst. destruct st as [((big & p) & q)|]; [|eexists; split; [reflexivity|auto]].
      rewrite (mget_OK 0 n 3) by (auto; lia). ret. fold (ix index k). destruct (Z.ltb_spec 0 (ix index k)).
      + eexists; split; [reflexivity|auto].
      + assert (k <> k0) by (intros ->; lia). assert (~ k0 < k) by (intros Q; specialize (Hst Q); discriminate).
        destruct (Z.ltb_spec (ix index k) 0).
        * rewrite (mget_OK 0%R n n) by (auto; lia). ret. destruct (Rltb _ _); eexists; (split; [reflexivity|]); intros; lia.
        * eexists; split; [reflexivity|]. intros; lia.
    - exists st. split; [exact EQ|]. apply Bst. lia. }
  match goal with |- for_up 0 n ?B ?S = _ =>
    destruct (for_up_inv (fun k st => k0 < k -> st = None) 0 n B S) as (st & EQ & Bst); [lia| | |] end.
  - intros; lia.
  - intros j st Hj Hst. destruct st as [((big & p) & q)|]; [|eexists; split; [reflexivity|auto]].
    rewrite (mget_OK 0 n 3) by (auto; lia). ret. fold (ix index j). destruct (Z.eqb_spec (ix index j) 0) as [Ej|Nj]; cbn [negb].
    + assert (j <> k0) by (intros ->; lia). assert (~ k0 < j) by (intros Q; specialize (Hst Q); discriminate).
      eexists; split; [reflexivity|]. intros; lia.
    + destruct (IN j (Some (big, p, q)) Hj) as (st' & EQ & ->). exists None. split; [exact EQ|auto].
  - rewrite EQ. f_equal. apply Bst. lia.
Qed.
