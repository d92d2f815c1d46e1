From Coq Require Import List ZArith QArith Lia Bool.
From Verif.Base Require Import Imp Sums.
From Verif.Maths Require Import IntModel IntSpec IntProofs.
From Verif.Rate Require Import Df2tSpec Df2tProofs DecimatorSpec DecimatorProofs DecimatorBModel DecimatorBSpec.
Import ListNotations.
Open Scope Z_scope.

Section P.
  Context {T : Type} (zero : T) (add sub mul : T -> T -> T) (lit : Q -> T).
  Context {F : Type} (fz : F) (up : F -> T) (down : T -> F).
  Notation Zn := (zn zero).
  Notation b0 := (lead lit bw_b).
  Notation cs := (pairs lit bw_b bw_a).
  Notation grun := (grun zero add sub mul b0 cs).
  Notation halved := (halved zero add sub mul b0 cs).

  Definition evens (ys : list T) : list T := ztab (zlen ys / 2) (fun j => Zn ys (2 * j)).

  Fixpoint casc (os : list (list T)) (xs : list T) : list (list T) * list T :=
    match os with
    | [] => ([], xs)
    | o :: r => let '(o1, ys) := grun o xs in let '(r', zs) := casc r (evens ys) in (o1 :: r', zs)
    end.

  Lemma evens_app a b m : zlen a = 2 * m -> 0 <= m -> evens (a ++ b) = evens a ++ evens b.
  Proof.
    intros E Hm. pose proof (zlen_nonneg b). pose proof (Z.div_pos (zlen b) 2 ltac:(lia) ltac:(lia)).
    unfold evens. zl. rewrite E.
    replace ((2 * m + zlen b) / 2) with (m + zlen b / 2).
    2: { rewrite (Z.mul_comm 2 m), Z.div_add_l; lia. }
    replace (2 * m / 2) with m by (rewrite Z.mul_comm, Z.div_mul; lia).
    rewrite ztab_app by lia. f_equal; apply ztab_ext; intros i Hi; rewrite zn_app, E; zcase; auto.
    f_equal. lia.
  Qed.
  Lemma evens_len a m : zlen a = 2 * m -> 0 <= m -> zlen (evens a) = m.
  Proof. intros E H. unfold evens. zl. rewrite E, Z.mul_comm, Z.div_mul by lia. lia. Qed.

  Lemma casc_app : forall os xs xs' m, zlen xs = m * 2 ^ zlen os -> 0 <= m ->
    casc os (xs ++ xs') =
    let '(o1, zs) := casc os xs in let '(o2, zs') := casc o1 xs' in (o2, zs ++ zs').
  Proof.
    induction os as [|o os IH]; intros xs xs' m Hx Hm; cbn [casc]; [reflexivity|].
    rewrite grun_app. pose proof (grun_len zero add sub mul b0 cs o xs) as L.
    destruct (grun o xs) as [o1 ys]. cbn [snd] in L. destruct (grun o1 xs') as [o2 ys'] eqn:E2.
    zl. pose proof (zlen_nonneg os).
    rewrite Z.pow_add_r, Z.pow_1_r in Hx by lia.
    rewrite (evens_app _ _ (m * 2 ^ zlen os)) by lia.
    rewrite (IH _ _ m) by (try lia; rewrite (evens_len _ (m * 2 ^ zlen os)); lia).
    destruct (casc os (evens ys)) as [r zs] eqn:E3. destruct (casc r (evens ys')) as [r' zs'] eqn:E4.
    cbn [casc]. rewrite E2, E4. reflexivity.
  Qed.

  Lemma casc_shape : forall os xs m, zlen xs = m * 2 ^ zlen os -> 0 <= m ->
    zlen (fst (casc os xs)) = zlen os /\ zlen (snd (casc os xs)) = m.
  Proof.
    induction os as [|o os IH]; intros xs m Hx Hm; cbn [casc].
    - cbn [fst snd]. split; auto. rewrite Hx. zl. lia.
    - pose proof (grun_len zero add sub mul b0 cs o xs) as L. destruct (grun o xs) as [o1 ys]. cbn [snd] in L.
      zl. pose proof (zlen_nonneg os). rewrite Z.pow_add_r, Z.pow_1_r in Hx by lia.
      destruct (IH (evens ys) m) as [A B]; [rewrite (evens_len _ (m * 2 ^ zlen os)); lia|lia|].
      destruct (casc os (evens ys)) as [r zs]. cbn [fst snd] in *. zl. lia.
  Qed.

  Lemma casc_halved : forall k xs, halved k xs (snd (casc (repeat (repeat zero 6) k) xs)).
  Proof.
    remember (repeat zero 6) as z6 eqn:Ez.
    induction k as [|k IH]; intros xs; cbn [repeat casc DecimatorBSpec.halved]; [reflexivity|].
    pose proof (grun_response zero add sub mul b0 cs xs ltac:(discriminate)) as R.
    change (repeat zero (length cs)) with (repeat zero 6) in R. rewrite <- Ez in R.
    destruct (grun z6 xs) as [o1 ys] eqn:E. destruct R as [R _].
    specialize (IH (evens ys)). destruct (casc (repeat z6 k) (evens ys)) as [r zs].
    cbn [snd] in *. exists ys, (evens ys). splits; auto.
    pose proof (zlen_nonneg ys). pose proof (Z.div_pos (zlen ys) 2 ltac:(lia) ltac:(lia)).
    unfold evens. split; zl; [lia|]. intros j Hj. rewrite zn_ztab by lia. reflexivity.
  Qed.

  Lemma halved_unique : forall k x z z', halved k x z -> halved k x z' -> z = z'.
  Proof.
    induction k as [|k IH]; intros x z z'; cbn; [congruence|].
    intros (y & w & R & [E1 E2] & H) (y' & w' & R' & [E1' E2'] & H').
    rewrite (response_unique zero add sub mul _ _ _ _ _ R R') in *.
    assert (w = w'); [|subst; eauto].
    apply (zn_ext zero); [congruence|]. intros i Hi. rewrite E2, E2' by lia. reflexivity.
  Qed.

  (** State of a working object: six delays per stage. *)
  Definition okB (e : decB T) (n f : Z) (os : list (list T)) : Prop :=
    e_in e = n /\ e_out e = Z.quot n f /\ e_factor e = f /\ e_o e = os /\ Forall (fun o => length o = 6%nat) os /\
    e_a e = map lit bw_a /\ e_b e = map lit bw_b /\ zlen (e_aa e) = n /\ zlen (e_tmp e) = n /\
    f = 2 ^ zlen os.

  (** One iteration of the filter loop. *)
  Lemma alias_body (B A : list T) c0 c1 c2 c3 c4 c5 c6 d0 d1 d2 d3 d4 d5 d6 :
    B = [c0; c1; c2; c3; c4; c5; c6] -> A = [d0; d1; d2; d3; d4; d5; d6] ->
    forall q0 q1 q2 q3 q4 q5 input dst i,
    (let o := [q0; q1; q2; q3; q4; q5] in
      b0 <- aget B 0 ;; o0 <- aget o 0 ;;
      let output := add (mul input b0) o0 in
      b1 <- aget B 1 ;; a1 <- aget A 1 ;; o1 <- aget o 1 ;;
      o <- aset o 0 (add (sub (mul input b1) (mul output a1)) o1) ;;
      b2 <- aget B 2 ;; a2 <- aget A 2 ;; o2 <- aget o 2 ;;
      o <- aset o 1 (add (sub (mul input b2) (mul output a2)) o2) ;;
      b3 <- aget B 3 ;; a3 <- aget A 3 ;; o3 <- aget o 3 ;;
      o <- aset o 2 (add (sub (mul input b3) (mul output a3)) o3) ;;
      b4 <- aget B 4 ;; a4 <- aget A 4 ;; o4 <- aget o 4 ;;
      o <- aset o 3 (add (sub (mul input b4) (mul output a4)) o4) ;;
      b5 <- aget B 5 ;; a5 <- aget A 5 ;; o5 <- aget o 5 ;;
      o <- aset o 4 (add (sub (mul input b5) (mul output a5)) o5) ;;
      b6 <- aget B 6 ;; a6 <- aget A 6 ;;
      o <- aset o 5 (sub (mul input b6) (mul output a6)) ;;
      dst <- aset dst i output ;;
      OK (dst, o)) =
    (let y := add (mul input c0) q0 in
     dst <- aset dst i y ;;
     OK (dst, delays add sub mul [(c1, d1); (c2, d2); (c3, d3); (c4, d4); (c5, d5); (c6, d6)]
                [q0; q1; q2; q3; q4; q5] input y)).
  Proof. intros -> ->. intros. reflexivity. Qed.

  Lemma alias_ok e n f os i o xs L :
    okB e n f os -> 0 <= i < zlen os -> zn [] os i = o -> 0 <= L <= n -> firstn (Z.to_nat L) (e_tmp e) = xs ->
    exists aa, decB_alias add sub mul e (e_tmp e) (e_aa e) L i = OK (aa, upd os (Z.to_nat i) (fst (grun o xs))) /\
      zlen aa = n /\ firstn (Z.to_nat L) aa = snd (grun o xs) /\ length (fst (grun o xs)) = 6%nat.
  Proof.
    intros (H1 & H2 & H3 & H4 & H5 & H6 & H7 & H8 & H9 & H10) Hi Ho HL Hx.
    unfold decB_alias. rewrite H4, H6, H7. rewrite (aget_OK []) by lia. cbn [bind]. rewrite Ho.
    assert (Lo : length o = 6%nat).
    { rewrite Forall_forall in H5. apply H5. rewrite <- Ho. unfold zn. destruct (Z.ltb_spec i 0); [lia|].
      apply nth_In. unfold zlen in Hi. lia. }
    match goal with |- context [for_up 0 L ?Fn ?S] =>
      destruct (for_up_inv (fun j s => zlen (fst s) = n /\ length (snd s) = 6%nat /\
        (snd s, firstn (Z.to_nat j) (fst s)) = grun o (firstn (Z.to_nat j) (e_tmp e))) 0 L Fn S)
        as ([dst o'] & E & I1 & I2 & I3); [lia| | |] end.
    - cbn [fst snd]. splits; auto.
    - intros j [dst oj] Hj (I1 & I2 & I3). cbn [fst snd] in *.
      rewrite (aget_OK zero) by lia. cbn [bind].
      destruct oj as [|q0 [|q1 [|q2 [|q3 [|q4 [|q5 [|]]]]]]]; try discriminate I2.
      set (x := Zn (e_tmp e) j). set (y := add (mul x b0) q0).
      pose proof (alias_body (map lit bw_b) (map lit bw_a) _ _ _ _ _ _ _ _ _ _ _ _ _ _ eq_refl eq_refl
        q0 q1 q2 q3 q4 q5 x dst j) as EX. cbv zeta in EX. rewrite EX. clear EX.
      match goal with |- context [aset dst j ?Y] => change Y with y end.
      rewrite aset_OK by lia. cbn [bind].
      eexists; split; [reflexivity|]. cbn [fst snd]. splits; [zl; lia|reflexivity|].
      rewrite (firstn_snoc zero) by (zl; lia). rewrite (firstn_snoc zero (e_tmp e)) by lia.
      rewrite grun_app, <- I3. rewrite zn_upd, Z.eqb_refl by lia.
      replace (firstn (Z.to_nat j) (upd dst (Z.to_nat j) _)) with (firstn (Z.to_nat j) dst).
      + reflexivity.
      + apply (zn_ext zero); [zl; lia|]. intros k Hk. zl. rewrite !zn_firstn by lia. rewrite zn_upd by lia. zcase; auto.
    - rewrite E. cbn [bind fst snd] in *. rewrite aset_OK by lia. cbn [bind].
      rewrite <- Hx. rewrite <- I3. cbn [fst snd]. exists dst. splits; auto.
  Qed.

  Lemma copy_evens aa tmp k n : zlen aa = n -> zlen tmp = n -> 0 <= k -> 2 * k <= n ->
    exists tmp', for_up 0 k (fun i tmp => v <- aget aa (i * 2) ;; aset tmp i v) tmp = OK tmp' /\
      zlen tmp' = n /\ firstn (Z.to_nat k) tmp' = evens (firstn (Z.to_nat (2 * k)) aa).
  Proof.
    intros Ha Ht Hk Hn.
    match goal with |- context [for_up 0 k ?Fn ?S] =>
      destruct (for_up_inv (fun j s => zlen s = n /\ forall i, 0 <= i < j -> Zn s i = Zn aa (2 * i)) 0 k Fn S)
        as (t & E & I1 & I2); [lia| | |] end.
    - split; auto. intros; lia.
    - intros i s Hi (I1 & I2). rewrite (aget_OK zero) by lia. cbn [bind]. rewrite aset_OK by lia.
      eexists; split; [reflexivity|]. split; [zl; lia|]. intros j Hj. rewrite zn_upd by lia.
      zcase; [subst; f_equal; lia|apply I2; lia].
    - exists t. splits; auto. assert (L : zlen (firstn (Z.to_nat (2 * k)) aa) = 2 * k) by (zl; lia).
      unfold evens. rewrite L. replace (2 * k / 2) with k by (rewrite Z.mul_comm, Z.div_mul; lia).
      apply (zn_ext zero); [zl; lia|]. intros i Hi. zl.
      rewrite zn_firstn by lia. rewrite zn_ztab by lia. rewrite zn_firstn by lia. apply I2. lia.
  Qed.

  Lemma loop_ok : forall rest dn fuel e n f m xs,
    okB e n f (dn ++ rest) -> (length rest <= fuel)%nat -> n = m * f -> 0 <= m ->
    firstn (Z.to_nat (m * 2 ^ zlen rest)) (e_tmp e) = xs ->
    exists e', while fuel (fun '(_, factorDone, e) => factorDone <? e_factor e)
      (fun '(filteridx, factorDone, e) =>
        '(aa, os) <- decB_alias add sub mul e (e_tmp e) (e_aa e) (Z.quot (e_in e) factorDone) filteridx ;;
        let filteridx := filteridx + 1 in
        let factorDone := factorDone * 2 in
        tmp <- for_up 0 (Z.quot (e_in e) factorDone) (fun i tmp =>
          v <- aget aa (i * 2) ;; aset tmp i v) (e_tmp e) ;;
        OK (filteridx, factorDone,
            mkDecB (e_in e) (e_out e) (e_factor e) os (e_a e) (e_b e) aa tmp)) (zlen dn, 2 ^ zlen dn, e)
      = OK (zlen (dn ++ rest), f, e') /\
      okB e' n f (dn ++ fst (casc rest xs)) /\ firstn (Z.to_nat m) (e_tmp e') = snd (casc rest xs).
  Proof.
    induction rest as [|o rest IH]; intros dn fuel e n f m xs HO Hf Hn Hm Hx.
    - rewrite app_nil_r in *. pose proof HO as (H1 & H2 & H3 & H4 & H5 & H6 & H7 & H8 & H9 & H10).
      exists e. cbn [casc fst snd]. rewrite app_nil_r. splits; auto.
      + destruct fuel; cbn [while]; rewrite H3, H10, Z.ltb_irrefl; reflexivity.
      + rewrite <- Hx. f_equal. zl. lia.
    - destruct fuel as [|fuel]; [cbn in Hf; lia|]. cbn [while].
      pose proof HO as (H1 & H2 & H3 & H4 & H5 & H6 & H7 & H8 & H9 & H10).
      pose proof (zlen_nonneg dn). pose proof (zlen_nonneg rest).
      assert (P1 : 0 < 2 ^ zlen dn) by (apply Z.pow_pos_nonneg; lia).
      assert (P2 : 0 < 2 ^ zlen rest) by (apply Z.pow_pos_nonneg; lia).
      assert (F1 : f = 2 ^ zlen dn * (2 * 2 ^ zlen rest)).
      { rewrite H10. zl. rewrite !Z.pow_add_r, Z.pow_1_r by lia. lia. }
      set (A := 2 ^ zlen dn) in *. set (B := 2 ^ zlen rest) in *.
      rewrite H3. destruct (Z.ltb_spec A f); [|nia].
      rewrite !Z.quot_div_nonneg by nia. rewrite H1.
      replace (n / A) with (m * (2 * B)) by (rewrite Hn, F1; replace (m * (A * (2 * B))) with (m * (2 * B) * A) by ring; rewrite Z.div_mul; lia).
      replace (n / (A * 2)) with (m * B) by (rewrite Hn, F1; replace (m * (A * (2 * B))) with (m * B * (A * 2)) by ring; rewrite Z.div_mul; lia).
      assert (Hx' : firstn (Z.to_nat (m * (2 * B))) (e_tmp e) = xs).
      { rewrite <- Hx. f_equal. f_equal. zl. rewrite Z.pow_add_r, Z.pow_1_r by lia. unfold B. ring. }
      assert (Bn : 0 <= m * (2 * B) <= n) by nia.
      destruct (alias_ok e n f (dn ++ o :: rest) (zlen dn) o xs (m * (2 * B)) HO) as (aa & E & L1 & L2 & L3);
        [zl; lia| |auto|auto|].
      { rewrite zn_app. zcase. now rewrite Z.sub_diag. }
      rewrite E. cbn [bind].
      destruct (copy_evens aa (e_tmp e) (m * B) n) as (tmp & Et & T1 & T2); [auto|auto|nia|nia|].
      rewrite Et. cbn [bind].
      replace (2 * (m * B)) with (m * (2 * B)) in T2 by ring. rewrite L2 in T2.
      assert (U : upd (dn ++ o :: rest) (Z.to_nat (zlen dn)) (fst (grun o xs)) = (dn ++ [fst (grun o xs)]) ++ rest).
      { rewrite <- app_assoc. clear. unfold zlen. rewrite Nat2Z.id. induction dn; cbn; [reflexivity|now f_equal]. }
      rewrite U.
      match goal with |- context [while fuel _ _ (_, _, ?ee)] => set (e1 := ee) end.
      assert (O1 : okB e1 n f ((dn ++ [fst (grun o xs)]) ++ rest)).
      { unfold okB, e1. cbn [e_in e_out e_factor e_o e_a e_b e_aa e_tmp]. splits; auto.
        - rewrite <- app_assoc. cbn [app]. apply Forall_app in H5 as [H51 H52]. apply Forall_app. split; auto.
          apply Forall_cons_iff in H52 as [_ H52]. constructor; auto.
        - rewrite H10. f_equal. zl. lia. }
      destruct (IH (dn ++ [fst (grun o xs)]) fuel e1 n f m (evens (snd (grun o xs))) O1) as (e' & E' & O' & X');
        [cbn in Hf; lia|auto|auto|cbn [e_tmp e1]; exact T2|].
      replace (zlen dn + 1) with (zlen (dn ++ [fst (grun o xs)])) by (zl; lia).
      replace (A * 2) with (2 ^ zlen (dn ++ [fst (grun o xs)])) by (zl; rewrite Z.pow_add_r, Z.pow_1_r by lia; reflexivity).
      exists e'. split.
      { etransitivity; [|etransitivity; [exact E'|]].
        - apply f_equal3; try reflexivity.
        - do 3 f_equal. zl. lia. }
      cbn [casc]. destruct (grun o xs) as [o1 ys]. cbn [fst snd] in *.
      destruct (casc rest (evens ys)) as [r zs]. cbn [fst snd] in *.
      rewrite <- app_assoc in O'. auto.
  Qed.

  Lemma fill_from {A B} (za : A) (zb : B) (g : A -> B) src dst n : 0 <= n -> n <= zlen src -> n <= zlen dst ->
    exists dst', for_up 0 n (fun i d => v <- aget src i ;; aset d i (g v)) dst = OK dst' /\
      zlen dst' = zlen dst /\ firstn (Z.to_nat n) dst' = map g (firstn (Z.to_nat n) src) /\
      skipn (Z.to_nat n) dst' = skipn (Z.to_nat n) dst.
  Proof.
    intros Hn Hs Hd.
    match goal with |- context [for_up 0 n ?Fn ?S] =>
      destruct (for_up_inv (fun j s => zlen s = zlen dst /\ forall i, 0 <= i < zlen dst ->
        zn zb s i = if i <? j then g (zn za src i) else zn zb dst i) 0 n Fn S)
        as (t & E & I1 & I2); [lia| | |] end.
    - split; auto. intros i Hi. zcase; auto.
    - intros i s Hi (I1 & I2). rewrite (aget_OK za) by lia. cbn [bind]. rewrite aset_OK by lia.
      eexists; split; [reflexivity|]. split; [zl; lia|]. intros j Hj. rewrite zn_upd, I2 by lia.
      zcase; auto. subst; auto.
    - exists t. splits; auto.
      + apply (zn_ext zb); [zl; lia|]. intros i Hi. zl. rewrite zn_firstn by lia.
        rewrite (zn_map _ za) by (zl; lia). rewrite zn_firstn by lia. rewrite I2 by lia. zcase; auto.
      + apply (zn_ext zb); [zl; lia|]. intros i Hi. zl. rewrite !zn_skipn by lia. rewrite I2 by lia. zcase; auto.
  Qed.

  Lemma processB_ok e n f m os src dst : okB e n f os -> (length os <= 32)%nat -> n = m * f -> 0 <= m ->
    zlen src = n -> m <= zlen dst ->
    exists e' dst', decB_process add sub mul up down e src dst = OK (e', dst') /\
      okB e' n f (fst (casc os (map up src))) /\
      firstn (Z.to_nat m) dst' = map down (snd (casc os (map up src))) /\ zlen dst' = zlen dst /\
      skipn (Z.to_nat m) dst' = skipn (Z.to_nat m) dst.
  Proof.
    intros HO Hl Hn Hm Hs Hd. pose proof HO as (H1 & H2 & H3 & H4 & H5 & H6 & H7 & H8 & H9 & H10).
    assert (Pf : 0 < f) by (rewrite H10; apply Z.pow_pos_nonneg; [lia|apply zlen_nonneg]).
    unfold decB_process. rewrite H3. destruct (Z.eqb_spec f 0); [lia|]. rewrite H1.
    destruct (fill_from fz zero up src (e_tmp e) n) as (tmp & Et & T1 & T2 & _); [nia|lia|lia|].
    rewrite Et. cbn [bind]. unfold decB_doProcess.
    match goal with |- context [while 32 _ _ (0, 1, ?ee)] => set (e1 := ee) end.
    assert (O1 : okB e1 n f ([] ++ os)).
    { unfold okB, e1. cbn [e_in e_out e_factor e_o e_a e_b e_aa e_tmp app]. splits; auto. lia. }
    destruct (loop_ok os [] 32 e1 n f m (map up src) O1) as (e' & E' & O' & X'); auto.
    { cbn [e1 e_tmp]. rewrite <- H10, <- Hn, T2. f_equal. apply firstn_all2. unfold zlen in Hs. lia. }
    change (zlen (@nil (list T))) with 0 in E'. change (2 ^ 0) with 1 in E'.
    match goal with |- context [while 32 ?c ?b ?s] =>
      replace (while 32 c b s) with (OK (zlen ([] ++ os), f, e')) by (symmetry; exact E') end.
    cbn [bind app fst snd] in *.
    pose proof O' as (K1 & K2 & K3 & K4 & K5 & K6 & K7 & K8 & K9 & K10).
    rewrite K2. rewrite Z.quot_div_nonneg by nia. 
    replace (n / f) with m by (rewrite Hn, Z.div_mul; lia).
    destruct (fill_from zero fz down (e_tmp e') dst m) as (dst' & Ed & D1 & D2 & D3); [lia|nia|lia|].
    rewrite Ed. cbn [bind]. exists e', dst'. splits; auto. now rewrite D2, X'.
  Qed.

  Lemma runB_ok n f m : n = m * f -> 0 <= m -> forall calls e os,
    okB e n f os -> (length os <= 32)%nat -> blocks n m calls ->
    exists e' outs, decB_run add sub mul up down e calls = OK (e', outs) /\
      okB e' n f (fst (casc os (map up (fed calls)))) /\
      got m outs = map down (snd (casc os (map up (fed calls)))) /\ beyond_kept m calls outs.
  Proof.
    intros Hn Hm. induction calls as [|[blk out] calls IH]; intros e os HO Hl HB.
    - cbn [decB_run]. exists e, []. unfold fed, got. cbn [map concat]. 
      assert (C0 : casc os [] = (os, [])).
      { clear -HO. induction os as [|o os IHo]; [reflexivity|]. cbn [casc Df2tProofs.grun].
        unfold evens. change (zlen (@nil T)) with 0. change (0 / 2) with 0. rewrite ztab_0 by lia. 
        assert (casc os [] = (os, [])); [|now rewrite H]. 
        clear. induction os as [|o' os IHo]; [reflexivity|]. cbn [casc Df2tProofs.grun].
        unfold evens. change (zlen (@nil T)) with 0. change (0 / 2) with 0. rewrite ztab_0 by lia. now rewrite IHo. }
      rewrite C0. cbn [fst snd map]. splits; auto. constructor.
    - apply Forall_cons_iff in HB as [[B1 B2] HB]. cbn [fst snd] in B1, B2. cbn [decB_run].
      destruct (processB_ok e n f m os blk out) as (e1 & d1 & E1 & O1 & F1 & L1 & S1); auto.
      rewrite E1. cbn [bind].
      assert (LX : zlen (map up blk) = m * 2 ^ zlen os).
      { destruct HO as (_ & _ & _ & _ & _ & _ & _ & _ & _ & <-). zl. lia. }
      destruct (casc_shape os (map up blk) m LX Hm) as [S2 S3].
      destruct (IH e1 (fst (casc os (map up blk))) O1) as (e' & outs & E' & O' & G' & K'); auto.
      { unfold zlen in S2. lia. }
      rewrite E'. cbn [bind]. exists e', (d1 :: outs). unfold fed in *. cbn [map concat fst].
      rewrite map_app. rewrite (casc_app os (map up blk) _ m LX Hm).
      destruct (casc os (map up blk)) as [o1 zs]. cbn [fst snd] in *.
      destruct (casc o1 (map up (concat (map fst calls)))) as [o2 zs']. cbn [fst snd] in *.
      splits; auto.
      + unfold got in *. cbn [map concat]. rewrite F1, G', map_app. reflexivity.
      + constructor; auto.
  Qed.

  Lemma newB_ok junk n k : (1 <= k <= 30)%nat -> 0 <= n -> (2 ^ Z.of_nat k | n) ->
    exists e, decB_new zero lit junk n (2 ^ Z.of_nat k) = OK e /\
      okB e n (2 ^ Z.of_nat k) (repeat (repeat zero 6) k).
  Proof.
    intros Hk Hn [q Hq]. unfold decB_new.
    assert (P : 2 <= 2 ^ Z.of_nat k) by (change 2 with (2 ^ 1) at 1; apply Z.pow_le_mono_r; lia).
    destruct (Z.eqb_spec (2 ^ Z.of_nat k) 0); [lia|]. destruct (Z.ltb_spec (2 ^ Z.of_nat k) 2); [lia|].
    assert (Hp : isPowerOfTwo (2 ^ Z.of_nat k) = true) by (apply isPow2_spec; exists (Z.of_nat k); split; lia).
    rewrite Hp. cbn [negb orb]. rewrite Z.rem_mod_nonneg by lia.
    replace (n mod 2 ^ Z.of_nat k) with 0 by (rewrite Hq, Z.mod_mul; lia). cbn [Z.eqb negb]. destruct (Z.ltb_spec n 0); [lia|].
    assert (W : forall k (acc : list (list T)) fuel, (k <= fuel)%nat ->
      while fuel (fun '(factor, _) => 1 <? factor)
        (fun '(factor, o) => OK (Z.quot factor 2, o ++ [repeat zero 6])) (2 ^ Z.of_nat k, acc) =
      OK (1, acc ++ repeat (repeat zero 6) k)).
    { clear. remember (repeat zero 6) as z6. induction k as [|k IH]; intros acc fuel Hf.
      - cbn [repeat]. rewrite app_nil_r. destruct fuel; reflexivity.
      - destruct fuel as [|fuel]; [lia|]. cbn [while].
        assert (2 <= 2 ^ Z.of_nat (S k)) by (change 2 with (2 ^ 1) at 1; apply Z.pow_le_mono_r; lia).
        destruct (Z.ltb_spec 1 (2 ^ Z.of_nat (S k))); [|lia]. cbn [bind].
        replace (Z.quot (2 ^ Z.of_nat (S k)) 2) with (2 ^ Z.of_nat k).
        + rewrite IH by lia. rewrite <- app_assoc. reflexivity.
        + rewrite Z.quot_div_nonneg by lia. rewrite Nat2Z.inj_succ, Z.pow_succ_r by lia.
          rewrite Z.mul_comm, Z.div_mul; lia. }
    rewrite W by lia. cbn [bind app]. eexists; split; [reflexivity|].
    unfold okB. cbn [e_in e_out e_factor e_o e_a e_b e_aa e_tmp]. splits; auto; try (zl; lia).
    apply Forall_forall. intros x Hx. apply repeat_spec in Hx. subst. reflexivity.
  Qed.

  Theorem decimatorB_stream junk n k calls : (1 <= k <= 30)%nat -> 0 <= n -> (2 ^ Z.of_nat k | n) ->
    blocks n (n / 2 ^ Z.of_nat k) calls ->
    exists e outs zs,
      (e0 <- decB_new zero lit junk n (2 ^ Z.of_nat k) ;; decB_run add sub mul up down e0 calls) = OK (e, outs) /\
      halved k (map up (fed calls)) zs /\ got (n / 2 ^ Z.of_nat k) outs = map down zs /\
      beyond_kept (n / 2 ^ Z.of_nat k) calls outs.
  Proof.
    intros Hk Hn Hd HB. destruct (newB_ok junk n k Hk Hn Hd) as (e0 & E0 & O0).
    rewrite E0. cbn [bind]. destruct Hd as [q Hq].
    assert (P : 0 < 2 ^ Z.of_nat k) by (apply Z.pow_pos_nonneg; lia).
    assert (Eq : n / 2 ^ Z.of_nat k = q) by (rewrite Hq; apply Z.div_mul; lia).
    rewrite Eq in *.
    destruct (runB_ok n (2 ^ Z.of_nat k) q Hq ltac:(nia) calls e0 _ O0) as (e & outs & E & _ & G & K); auto.
    { rewrite repeat_length. lia. }
    exists e, outs, (snd (casc (repeat (repeat zero 6) k) (map up (fed calls)))). splits; auto.
    apply casc_halved.
  Qed.

  (** Unsupported arguments (other than factor 0): process does nothing. *)
  Theorem decimatorB_unsupported junk n f calls :
    f <> 0 -> f < 2 \/ ~ power_of_two f \/ ~ (f | n) ->
    exists e, (e0 <- decB_new zero lit junk n f ;; decB_run add sub mul up down e0 calls) = OK (e, map snd calls).
  Proof.
    intros Hf H.
    assert (exists e0, decB_new zero lit junk n f = OK e0 /\ e_factor e0 = 0) as (e0 & E0 & F0).
    { unfold decB_new. destruct (Z.eqb_spec f 0); [lia|].
      destruct ((f <? 2) || negb (isPowerOfTwo f)) eqn:C; [eexists; split; reflexivity|].
      apply orb_false_iff in C as [C1 C2]. apply Z.ltb_ge in C1. apply negb_false_iff in C2.
      apply isPow2_spec in C2. destruct (Z.eqb_spec (Z.rem n f) 0) as [R|R]; cbn [negb].
      - exfalso. destruct H as [H|[H|H]]; [lia|auto|]. apply H. apply Z.rem_divide; auto.
      - eexists; split; reflexivity. }
    rewrite E0. cbn [bind]. exists e0. induction calls as [|[blk out] calls IH]; [reflexivity|].
    cbn [decB_run]. unfold decB_process. rewrite F0. cbn [Z.eqb bind]. rewrite IH. reflexivity.
  Qed.

  Theorem decimatorB_zero junk n : decB_new zero lit junk n 0 = UB.
  Proof. reflexivity. Qed.
End P.
