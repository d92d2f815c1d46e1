(** Filters on mapped data, and filters that have absorbed a value such as NaN. *)
From Coq Require Import List ZArith Lia Bool.
From Verif.Base Require Import Imp Sums Images.
From Verif.Signal Require Import FilterModel FilterSpec FilterProofs FiltFiltModel FiltFiltSpec FiltFiltProofs.
Import ListNotations.
Open Scope Z_scope.

Section Image.
  Context {T T' : Type} (zero two : T) (add sub mul : T -> T -> T) (zero' two' : T') (add' sub' mul' : T' -> T' -> T') (h : T -> T').
  Hypothesis h_zero : h zero = zero'.
  Hypothesis h_two : h two = two'.
  Hypothesis h_add : forall x y, h (add x y) = add' (h x) (h y).
  Hypothesis h_sub : forall x y, h (sub x y) = sub' (h x) (h y).
  Hypothesis h_mul : forall x y, h (mul x y) = mul' (h x) (h y).

  Definition filter_image (f : filter T) : filter T' :=
    {| f_order := f_order f; f_sz := f_sz f; f_a := map h (f_a f); f_b := map h (f_b f); f_bufa := map h (f_bufa f); f_bufb := map h (f_bufb f);
       f_offa := f_offa f; f_offb := f_offb f; f_offmax := f_offmax f; f_fir := f_fir f |}.
  Definition filtfilt_image (f : filtfilt T) : filtfilt T' := {| ff_filter := filter_image (ff_filter f); ff_ord := ff_ord f |}.

  Lemma filter_new_image a b : filter_new zero' (map h a) (map h b) = rmap filter_image (filter_new zero a b).
  Proof.
    unfold filter_new. rewrite !zlen_map. destruct a as [|x a]; cbn [map].
    - destruct b as [|y b]; cbn [map bind rmap]; [reflexivity|]. unfold filter_image. cbn -[repeat zlen Z.add Z.sub]. rewrite <- h_zero, <- map_repeat_zero. reflexivity.
    - destruct (zlen (x :: a) =? zlen b); cbn [bind rmap]; [|reflexivity]. unfold filter_image. cbn -[repeat zlen Z.add Z.sub]. rewrite <- h_zero, <- !map_repeat_zero. reflexivity.
  Qed.
  Lemma filtfilt_new_image a b : filtfilt_new zero' (map h a) (map h b) = rmap filtfilt_image (filtfilt_new zero a b).
  Proof. unfold filtfilt_new. rewrite filter_new_image. apply bind_rmap. reflexivity. Qed.

  Lemma filter_reset_image f : filter_reset zero' (filter_image f) = filter_image (filter_reset zero f).
  Proof.
    unfold filter_reset, filter_image. cbn -[repeat]. rewrite !map_length, <- h_zero, <- !map_repeat_zero. destruct (f_fir f); reflexivity.
  Qed.

  Lemma room_image offmax hi off buf : make_room offmax hi off (map h buf) = rmap (fun p => (fst p, map h (snd p))) (make_room offmax hi off buf).
  Proof.
    unfold make_room. destruct (0 <? off); [reflexivity|]. unfold shift_back.
    rewrite (for_down_image (map h) hi 0 (fun i buf => v <- aget buf i ;; aset buf (i + offmax + 1) v) _ buf (map h buf)); [|reflexivity|].
    - apply bind_rmap. reflexivity.
    - intros i s Hi. rewrite aget_map. apply bind_rmap. intros v. apply aset_map.
  Qed.

  Lemma dot_image (c v : list T) lo n oc ov :
    for_up lo n (fun i acc => x <- aget (map h c) (i + oc) ;; y <- aget (map h v) (i + ov) ;; OK (add' acc (mul' x y))) zero'
    = rmap h (for_up lo n (fun i acc => x <- aget c (i + oc) ;; y <- aget v (i + ov) ;; OK (add acc (mul x y))) zero).
  Proof.
    apply for_up_image; [auto|]. intros i s Hi. rewrite !aget_map. apply bind_rmap. intros x. apply bind_rmap. intros y. cbn. now rewrite h_add, h_mul.
  Qed.

  Lemma filter_step_image f x : filter_step zero' add' sub' mul' (filter_image f) (h x) = rmap (fun p => (filter_image (fst p), h (snd p))) (filter_step zero add sub mul f x).
  Proof.
    unfold filter_step. unfold filter_image at 1 2 3 4. cbn [f_offmax f_sz f_offb f_bufb]. rewrite room_image. apply bind_rmap. intros (offb & bufb). cbn [fst snd].
    rewrite aset_map. apply bind_rmap. clear bufb. intros bufb.
    change (f_b (filter_image f)) with (map h (f_b f)).
    pose proof (dot_image (f_b f) bufb 0 (f_sz f) 0 offb) as D.
    rewrite (for_up_ext _ _ _ (fun i acc => c <- aget (map h (f_b f)) i ;; v <- aget (map h bufb) (i + offb) ;; OK (add' acc (mul' c v)))) in D by (intros; now rewrite Z.add_0_r).
    rewrite (for_up_ext _ _ (fun i acc => x0 <- aget (f_b f) (i + 0) ;; _) (fun i acc => c <- aget (f_b f) i ;; v <- aget bufb (i + offb) ;; OK (add acc (mul c v)))) in D by (intros; now rewrite Z.add_0_r).
    unfold filter_image at 1. cbn [f_sz]. rewrite D. apply bind_rmap. clear D. intros bs.
    change (f_fir (filter_image f)) with (f_fir f). destruct (f_fir f) eqn:Ef; [cbn; unfold filter_image; cbn; reflexivity|].
    unfold filter_image at 1 2 3 4 5. cbn [f_order f_a f_bufa f_offa]. rewrite dot_image. apply bind_rmap. intros as_.
    unfold filter_image at 1 2 3. cbn [f_offmax f_order f_offa f_bufa]. rewrite room_image. apply bind_rmap. intros (offa & bufa). cbn [fst snd].
    rewrite <- h_sub, aset_map. apply bind_rmap. clear bufa. intros bufa. reflexivity.
  Qed.

  Notation both := (fun p => (filter_image (fst p), map h (snd p))).
  Lemma filter_process_image f inp out n : filter_process zero' add' sub' mul' (filter_image f) (map h inp) (map h out) n = rmap both (filter_process zero add sub mul f inp out n).
  Proof.
    unfold filter_process. apply (for_up_image both); [reflexivity|]. intros s (f1 & o1) Hs. cbn [fst snd]. rewrite aget_map. apply bind_rmap. intros x.
    rewrite filter_step_image. apply bind_rmap. intros (f2 & v). cbn [fst snd]. rewrite aset_map. apply bind_rmap. reflexivity.
  Qed.

  Notation second := (fun p : Z * list T => (fst p, map h (snd p))).
  Lemma filtfilt_process_image ff src dst n : filtfilt_process zero' two' add' sub' mul' (filtfilt_image ff) (map h src) (map h dst) n
    = rmap (fun p => (filtfilt_image (fst p), map h (snd p))) (filtfilt_process zero two add sub mul ff src dst n).
  Proof.
    unfold filtfilt_process. destruct (n =? 0); [reflexivity|]. cbv zeta. change (ff_ord (filtfilt_image ff)) with (ff_ord ff).
    set (q := 3 * (ff_ord ff + 1 - 1)). rewrite !aget_map. apply bind_rmap. intros s0. apply bind_rmap. intros sN.
    rewrite (for_down_image second q 1 (fun i '(index, sc) => sc <- (if i <? n then v <- aget src i ;; aset sc index (sub (mul two s0) v) else OK sc) ;; OK (index + 1, sc))
      _ (0, repeat zero (Z.to_nat (n + 2 * q)))).
    2:{ cbn [fst snd]. rewrite map_repeat_zero, h_zero. reflexivity. }
    2:{ intros i (ix & sc) Hi. cbn [fst snd].
        destruct (i <? n); [|reflexivity]. rewrite aget_map, <- h_two, <- h_mul. erewrite (bind_rmap h (map h)); [apply bind_rmap; reflexivity|].
        intros v. cbv beta. rewrite <- h_sub. apply aset_map. }
    apply bind_rmap. intros (ix & sc). cbn [fst snd].
    rewrite (for_up_image second 0 q (fun i '(index, sc) => sc <- (if i + 1 <? n then v <- aget src (n - 2 - i) ;; aset sc ((n + 2 * q - q) + index) (sub (mul two sN) v) else OK sc) ;; OK (index + 1, sc))
      _ (0, sc)).
    2:{ cbn [fst snd]. reflexivity. }
    2:{ intros i (jx & sd) Hi. cbn [fst snd].
        destruct (i + 1 <? n); [|reflexivity]. rewrite aget_map, <- h_two, <- h_mul. erewrite (bind_rmap h (map h)); [apply bind_rmap; reflexivity|].
        intros v. cbv beta. rewrite <- h_sub. apply aset_map. }
    apply bind_rmap. intros (jx & sd). cbn [fst snd].
    erewrite (for_up_image (map h) 0 n); [|reflexivity|].
    2:{ intros i s Hi. rewrite aget_map. apply bind_rmap. intros v. apply aset_map. }
    apply bind_rmap. intros si.
    change (ff_filter (filtfilt_image ff)) with (filter_image (ff_filter ff)).
    replace (repeat zero' (Z.to_nat (n + 2 * q))) with (map h (repeat zero (Z.to_nat (n + 2 * q)))) by (now rewrite map_repeat_zero, h_zero).
    rewrite filter_process_image. apply bind_rmap. intros (f & so). cbn [fst snd].
    erewrite (for_up_image (map h) 0 (n + 2 * q)); [|reflexivity|].
    2:{ intros i s Hi. rewrite aget_map. apply bind_rmap. intros v. apply aset_map. }
    apply bind_rmap. intros si2. rewrite filter_reset_image, filter_process_image. apply bind_rmap. intros (f2 & so2). cbn [fst snd].
    erewrite (for_up_image (map h) 0 n); [|reflexivity|].
    2:{ intros i s Hi. rewrite aget_map. apply bind_rmap. intros v. apply aset_map. }
    apply bind_rmap. reflexivity.
  Qed.

  Lemma zn_image l i : zn zero' (map h l) i = h (zn zero l i).
  Proof.
    destruct (Z_lt_le_dec i 0); [|destruct (Z_lt_le_dec i (zlen l))]; [|apply zn_map; lia|]; rewrite !zn_out by (rewrite ?zlen_map; lia); now rewrite h_zero.
  Qed.
  Lemma rep_image a b f xs ys : rep zero a b f xs ys -> rep zero' (map h a) (map h b) (filter_image f) (map h xs) (map h ys).
  Proof.
    intros (A & B & Sz & Or & Om & Fi & Ob & Lb & W & I). unfold rep, filter_image. cbn [f_a f_b f_sz f_order f_offmax f_fir f_offb f_bufb f_offa f_bufa].
    rewrite A, B. splits; auto; rewrite ?zlen_map; auto.
    - destruct a; auto.
    - apply Ob.
    - apply Ob.
    - intros i Hi. rewrite !zn_image, zlen_map. now rewrite W.
    - intros Ha. destruct I as (I1 & I2 & I3 & I4); [intros ->; apply Ha; reflexivity|]. splits; auto; try apply I2. intros i Hi. rewrite !zn_image, zlen_map. now rewrite I4.
  Qed.
  Lemma fsum_image n f g : (forall i, 0 <= i < n -> g i = h (f i)) -> fsum zero' add' n g = h (fsum zero add n f).
  Proof.
    intros H. destruct (Z_lt_le_dec n 0). { rewrite !fsum_0 by lia. auto. }
    revert H. pattern n. apply natlike_ind; [| |lia].
    - intros _. rewrite !fsum_0 by lia. auto.
    - intros x Hx IH H. unfold Z.succ. rewrite !fsum_S by lia. rewrite h_add, H by lia. f_equal. apply IH. intros; apply H; lia.
  Qed.
  Lemma response_image a b xs ys : is_response zero add sub mul a b xs ys -> is_response zero' add' sub' mul' (map h a) (map h b) (map h xs) (map h ys).
  Proof.
    intros (L & H). split; [rewrite !zlen_map; exact L|]. intros s Hs. rewrite zlen_map in Hs. rewrite zn_image, H by lia. unfold diff_eq_at. rewrite !zlen_map.
    assert (Q : fsum zero' add' (zlen b) (fun i => mul' (zn zero' (map h b) i) (zn zero' (map h xs) (s - i))) = h (fsum zero add (zlen b) (fun i => mul (zn zero b i) (zn zero xs (s - i))))).
    { apply fsum_image. intros i Hi. now rewrite !zn_image, h_mul. }
    rewrite Q. destruct a as [|a0 a]; cbn [map]; [reflexivity|]. rewrite h_sub. f_equal. symmetry. apply fsum_image. intros i Hi.
    change (h a0 :: map h a) with (map h (a0 :: a)). now rewrite !zn_image, h_mul.
  Qed.
End Image.

(** *** Absorbing values *)
Section Poison.
  Context {T : Type} (zero two : T) (add sub mul : T -> T -> T) (N : T).
  Hypothesis add_l : forall x, add N x = N.
  Hypothesis add_r : forall x, add x N = N.
  Hypothesis sub_l : forall x, sub N x = N.
  Hypothesis sub_r : forall x, sub x N = N.
  Hypothesis mul_r : forall x, mul x N = N.

  Lemma fsum_poison n f k : 0 <= k < n -> f k = N -> fsum zero add n f = N.
  Proof.
    intros Hk Hf. pattern n. apply (Zlt_lower_bound_ind _ (k + 1)); [|lia]. assert (K : 0 <= k) by lia. clear n Hk. intros n IH Hn.
    replace n with ((n - 1) + 1) by lia. rewrite fsum_S by lia. destruct (Z.eq_dec n (k + 1)) as [-> |].
    - replace (k + 1 - 1) with k by lia. rewrite Hf. apply add_r.
    - rewrite IH by lia. apply add_l.
  Qed.

  (** Once an input is absorbed, all outputs of a recursive filter from then on are. *)
  Lemma response_poison a b xs ys k : a <> [] -> 2 <= zlen b -> is_response zero add sub mul a b xs ys ->
    0 <= k -> zn zero xs k = N \/ (1 <= k /\ zn zero ys (k - 1) = N) -> forall s, k <= s < zlen xs -> zn zero ys s = N.
  Proof.
    intros Ha Hb (L & H) Hk Hx s Hs.
    assert (St : forall s, 0 <= s < zlen xs -> zn zero xs s = N \/ (1 <= s /\ zn zero ys (s - 1) = N) -> zn zero ys s = N).
    { clear s Hs. intros s Hs D. rewrite H by lia. unfold diff_eq_at. destruct a as [|a0 a]; [congruence|]. destruct D as [D|(_ & D)].
      - rewrite (fsum_poison (zlen b) _ 0) by (try lia; rewrite Z.sub_0_r, D; apply mul_r). apply sub_l.
      - rewrite (fsum_poison (zlen b - 1) _ 0) by (try lia; rewrite Z.add_0_l, D; apply mul_r). apply sub_r. }
    assert (G : forall n, 0 <= n -> k + n < zlen xs -> zn zero ys (k + n) = N).
    { intros n Hn. pattern n. apply natlike_ind; [|intros x Hx0 IH Hl|exact Hn].
      - intros Hl. rewrite Z.add_0_r in *. apply St; [lia|exact Hx].
      - apply St; [lia|]. right. split; [lia|]. replace (k + Z.succ x - 1) with (k + x) by lia. apply IH. lia. }
    replace s with (k + (s - k)) by lia. apply G; lia.
  Qed.

  (** A filter that has put out the absorbing value last. *)
  Definition poisoned (a b : list T) (f : filter T) : Prop :=
    exists xs ys, rep zero a b f xs ys /\ is_response zero add sub mul a b xs ys /\ 1 <= zlen xs /\ zn zero ys (zlen xs - 1) = N.

  Lemma all_poison (l : list T) n : zlen l = n -> (forall i, 0 <= i < n -> zn zero l i = N) -> l = repeat N (Z.to_nat n).
  Proof. intros L H. apply (zn_ext zero). { zl. pose proof (zlen_nonneg l). lia. } intros i Hi. rewrite H by lia. symmetry. rewrite (zn_default zero N) by (zl; lia). apply zn_repeat. Qed.

  Lemma only_poison (l : list T) : (forall x, In x l -> x = N) -> l = repeat N (length l).
  Proof. induction l as [|x l IH]; intros H; cbn; [reflexivity|]. rewrite (H x) by now left. f_equal. apply IH. intros y Hy. apply H. now right. Qed.
  Lemma in_firstn (l : list T) n x : In x (firstn n l) -> In x l.
  Proof. revert n; induction l as [|y l IH]; intros [|n]; cbn; auto; try tauto. intros [->|H]; auto. right. eapply IH; eauto. Qed.
  Lemma in_skipn (l : list T) n x : In x (skipn n l) -> In x l.
  Proof. revert n; induction l as [|y l IH]; intros [|n]; cbn; auto. intros H. right. eapply IH; eauto. Qed.

  Lemma filtfilt_poison a b ff xs ys src dst : a <> [] -> zlen a = zlen b -> 2 <= zlen b -> ff_ord ff = zlen b - 1 ->
    rep zero a b (ff_filter ff) xs ys -> is_response zero add sub mul a b xs ys -> 0 < zlen src <= zlen dst ->
    (1 <= zlen xs /\ zn zero ys (zlen xs - 1) = N) \/ zn zero src 0 = N ->
    exists ff', filtfilt_process zero two add sub mul ff src dst (zlen src) = OK (ff', repeat N (length src) ++ skipn (length src) dst) /\
      ff_ord ff' = zlen b - 1 /\ poisoned a b (ff_filter ff').
  Proof.
    intros Ha La Hb Ho R S L D.
    destruct (filtfilt_process_spec zero two add sub mul a b ff xs ys src dst) as (ff' & y & z & E & Ly & S1 & S2 & O' & P'); auto.
    { right. lia. }
    { intros ->. cbn in Hb. lia. }
    set (p := 3 * (zlen b - 1)) in *.
    assert (Lx : zlen ys = zlen xs) by apply S.
    assert (Le : zlen (xs ++ extended zero two sub mul p src) = zlen xs + zlen y) by (destruct S1 as (S1 & _); rewrite <- S1; zl; lia).
    assert (Yl : zn zero y (zlen y - 1) = N).
    { assert (Q : zn zero (ys ++ y) (zlen xs + (zlen y - 1)) = N).
      { destruct D as [(D1 & D2)|D].
        - apply (response_poison a b (xs ++ extended zero two sub mul p src) (ys ++ y) (zlen xs) Ha Hb S1); [lia| |lia].
          right. split; [lia|]. rewrite zn_app. destruct (Z.ltb_spec (zlen xs - 1) (zlen ys)); [exact D2|lia].
        - apply (response_poison a b (xs ++ extended zero two sub mul p src) (ys ++ y) (zlen xs + p) Ha Hb S1); [pose proof (zlen_nonneg xs); lia| |lia].
          left. rewrite zn_app. destruct (Z.ltb_spec (zlen xs + p) (zlen xs)); [lia|]. replace (zlen xs + p - zlen xs) with p by lia.
          unfold extended. rewrite zn_ztab by (unfold p; lia). rewrite Z.sub_diag. unfold reflect_at. destruct (Z.ltb_spec 0 0); [lia|]. destruct (Z.ltb_spec 0 (zlen src)); [exact D|lia]. }
      rewrite zn_app in Q. destruct (Z.ltb_spec (zlen xs + (zlen y - 1)) (zlen ys)); [lia|]. rewrite <- Q. f_equal. lia. }
    assert (Lz : zlen z = zlen y) by (destruct S2 as (S2 & _); rewrite S2; zl; lia).
    assert (Zz : z = repeat N (Z.to_nat (zlen z))).
    { apply all_poison; auto. intros i Hi. apply (response_poison a b (rev y) z 0 Ha Hb S2); [lia| |zl; lia].
      left. rewrite zn_rev by lia. rewrite <- Yl. f_equal. lia. }
    exists ff'. splits; auto.
    - rewrite E. f_equal. f_equal. f_equal.
      rewrite (only_poison (firstn _ _)); [f_equal; rewrite firstn_length, skipn_length, rev_length; unfold zlen in *; lia|].
      intros x Hx. apply in_firstn, in_skipn, in_rev in Hx. rewrite Zz in Hx. apply repeat_spec in Hx. exact Hx.
    - exists (rev y), z. splits; auto; [zl; lia|]. rewrite Zz. rewrite (zn_default zero N) by (zl; lia). apply zn_repeat.
  Qed.
End Poison.
