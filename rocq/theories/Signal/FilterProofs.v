From Coq Require Import List ZArith Lia Bool.
From Verif.Base Require Import Imp Sums.
From Verif.Signal Require Import FilterModel FilterSpec.
Import ListNotations.
Open Scope Z_scope.

Section Proofs.
  Context {T : Type} (zero : T) (add sub mul : T -> T -> T).
  Notation filter_new := (filter_new zero).
  Notation filter_step := (filter_step zero add sub mul).
  Notation filter_process := (filter_process zero add sub mul).
  Notation filter_run := (filter_run zero add sub mul).
  Notation diff_eq_at := (diff_eq_at zero add sub mul).
  Notation is_response := (is_response zero add sub mul).
  Notation Zn := (zn zero).

  (** *** The response exists, is unique and is causal. *)
  Lemma diff_eq_at_ext a b x y x' y' s :
    (forall i, i <= s -> Zn x i = Zn x' i) -> (forall i, i < s -> Zn y i = Zn y' i) ->
    diff_eq_at a b x y s = diff_eq_at a b x' y' s.
  Proof.
    intros Hx Hy. unfold FilterSpec.diff_eq_at.
    assert (E1 : fsum zero add (zlen b) (fun i => mul (Zn b i) (Zn x (s - i)))
               = fsum zero add (zlen b) (fun i => mul (Zn b i) (Zn x' (s - i)))).
    { apply fsum_ext; intros i Hi. now rewrite Hx by lia. }
    rewrite E1. destruct a; [reflexivity|]. f_equal.
    apply fsum_ext; intros i Hi. now rewrite Hy by lia.
  Qed.

  Lemma response_unique a b x y y' : is_response a b x y -> is_response a b x y' -> y = y'.
  Proof.
    intros [L H] [L' H'].
    assert (Hall : forall n : nat, forall s, s < Z.of_nat n -> s < zlen x -> Zn y s = Zn y' s).
    { induction n as [|n IH]; intros s Hs Hx.
      - rewrite !zn_out by lia. reflexivity.
      - destruct (Z.lt_ge_cases s 0) as [Hn|Hn]; [rewrite !zn_out by lia; reflexivity|].
        rewrite H, H' by lia. apply diff_eq_at_ext; [reflexivity|].
        intros i Hi. apply IH; lia. }
    apply (zn_ext zero); [lia|]. intros i Hi.
    apply (Hall (S (Z.to_nat i))); lia.
  Qed.

  Lemma zn_snoc l (x : T) i : Zn (l ++ [x]) i = if i =? zlen l then x else Zn l i.
  Proof.
    rewrite zn_app. destruct (Z.eqb_spec i (zlen l)) as [->|Hne].
    - rewrite Z.ltb_irrefl, Z.sub_diag. reflexivity.
    - destruct (Z.ltb_spec i (zlen l)); [reflexivity|].
      rewrite (zn_out zero l i) by lia. apply zn_out. rewrite zlen_1; lia.
  Qed.

  (** *** The buffers *)
  Definition window (off n : Z) (buf l : list T) : Prop :=
    forall i, 0 <= i < n -> Zn buf (off + i) = Zn l (zlen l - 1 - i).

  Lemma shift_back_spec offmax hi buf :
    0 <= offmax -> -1 <= hi -> hi + offmax + 1 < zlen buf ->
    exists buf', shift_back offmax hi buf = OK buf' /\ zlen buf' = zlen buf /\
      forall i, 0 <= i <= hi -> Zn buf' (i + offmax + 1) = Zn buf i.
  Proof.
    intros Ho Hh Hl. unfold shift_back.
    destruct (for_down_inv (fun i buf' => zlen buf' = zlen buf /\
        (forall k, 0 <= k <= i -> Zn buf' k = Zn buf k) /\
        (forall k, i < k <= hi -> Zn buf' (k + offmax + 1) = Zn buf k))
      hi 0 (fun i buf => v <- aget buf i ;; aset buf (i + offmax + 1) v) buf)
      as (b' & E & H1 & H2 & H3).
    - lia.
    - repeat split; auto; intros; lia.
    - intros i s Hi (L & Hlo & Hhi2).
      exists (upd s (Z.to_nat (i + offmax + 1)) (Zn s i)). split.
      + rewrite (aget_OK zero) by lia. cbn [bind]. apply aset_OK; lia.
      + repeat split.
        * now rewrite zlen_upd.
        * intros k Hk. rewrite zn_upd by lia.
          destruct (Z.eqb_spec k (i + offmax + 1)); [lia|]. apply Hlo; lia.
        * intros k Hk. rewrite zn_upd by lia.
          destruct (Z.eqb_spec (k + offmax + 1) (i + offmax + 1)).
          -- replace k with i by lia. apply Hlo; lia.
          -- apply Hhi2; lia.
    - exists b'. repeat split; auto. intros i Hi. apply H3; lia.
  Qed.

  (** Making room and storing [v] in front advances the window by one. *)
  Lemma push_front offmax n off buf l v :
    0 <= offmax -> 1 <= n -> 0 <= off <= offmax -> zlen buf = n + offmax ->
    window off n buf l ->
    exists off' buf' buf'', make_room offmax (n - 2) off buf = OK (off', buf') /\
      aset buf' off' v = OK buf'' /\
      0 <= off' <= offmax /\ zlen buf'' = n + offmax /\ window off' n buf'' (l ++ [v]).
  Proof.
    intros Ho Hn Hoff Hl W. unfold make_room.
    destruct (Z.ltb_spec 0 off) as [Hp|Hp].
    - exists (off - 1), buf, (upd buf (Z.to_nat (off - 1)) v).
      repeat split; try lia.
      + apply aset_OK; lia.
      + now rewrite zlen_upd.
      + intros i Hi. rewrite zn_upd by lia. rewrite zlen_app, zn_snoc, zlen_1.
        destruct (Z.eqb_spec (off - 1 + i) (off - 1)).
        * replace i with 0 by lia. rewrite (proj2 (Z.eqb_eq _ _)) by lia. reflexivity.
        * rewrite (proj2 (Z.eqb_neq _ _)) by lia.
          replace (off - 1 + i) with (off + (i - 1)) by lia. rewrite W by lia. f_equal; lia.
    - assert (off = 0) by lia; subst off.
      destruct (shift_back_spec offmax (n - 2) buf) as (b' & E & L & H); try lia.
      exists offmax, b', (upd b' (Z.to_nat offmax) v). rewrite E. cbn [bind].
      repeat split; try lia.
      + apply aset_OK; lia.
      + rewrite zlen_upd; lia.
      + intros i Hi. rewrite zn_upd by lia. rewrite zlen_app, zn_snoc, zlen_1.
        destruct (Z.eqb_spec (offmax + i) offmax).
        * replace i with 0 by lia. rewrite (proj2 (Z.eqb_eq _ _)) by lia. reflexivity.
        * rewrite (proj2 (Z.eqb_neq _ _)) by lia.
          replace (offmax + i) with ((i - 1) + offmax + 1) by lia. rewrite H by lia.
          specialize (W (i - 1) ltac:(lia)). cbn in W. rewrite W. f_equal; lia.
  Qed.

  (** [f] is a filter (a,b) that has consumed [xs] and produced [ys] since it was
      last fresh. *)
  Definition rep (a b : list T) (f : filter T) (xs ys : list T) : Prop :=
    f_a f = a /\ f_b f = b /\ f_sz f = zlen b /\ f_order f = zlen b - 1 /\ f_offmax f = 20 /\
    f_fir f = (match a with [] => true | _ => false end) /\
    0 <= f_offb f <= 20 /\ zlen (f_bufb f) = zlen b + 20 /\
    window (f_offb f) (zlen b) (f_bufb f) xs /\
    (a <> [] -> zlen a = zlen b /\ 0 <= f_offa f <= 20 /\ zlen (f_bufa f) = zlen b - 1 + 20 /\
                window (f_offa f) (zlen b - 1) (f_bufa f) ys).

  Lemma window_zeros off n k : window off n (repeat zero k) [].
  Proof. intros i Hi. now rewrite zn_repeat, zn_nil. Qed.

  Lemma filter_new_rep a b : accepted a b ->
    exists f, filter_new a b = OK f /\ rep a b f [] [].
  Proof.
    intros [[-> Hb]|[Ha Hl]].
    - destruct b as [|b0 b]; [congruence|]. unfold FilterModel.filter_new. cbn [bind].
      eexists; split; [reflexivity|]. pose proof (zlen_nonneg b) as Hz.
      unfold rep; cbn -[zlen Z.sub Z.add repeat].
      repeat split; try lia; try congruence.
      + rewrite zlen_repeat, zlen_cons; lia.
      + apply window_zeros.
    - unfold FilterModel.filter_new. destruct a as [|a0 a]; [congruence|].
      rewrite Hl, Z.eqb_refl. cbn [bind]. eexists; split; [reflexivity|].
      pose proof (zlen_nonneg a) as Hz. pose proof (zlen_cons a0 a) as Hc.
      unfold rep; cbn -[zlen Z.sub Z.add repeat].
      repeat split; try lia; try congruence.
      + rewrite zlen_repeat; lia.
      + apply window_zeros.
      + rewrite zlen_repeat; lia.
      + apply window_zeros.
  Qed.

  (** Rejected coefficients throw. *)
  Lemma filter_new_throw a b : ~ accepted a b -> filter_new a b = Throw.
  Proof.
    intros H. unfold FilterModel.filter_new, accepted in *.
    destruct a as [|a0 a].
    - destruct b; [reflexivity|]. exfalso; apply H; left; split; congruence.
    - destruct (Z.eqb_spec (zlen (a0 :: a)) (zlen b)); [|reflexivity].
      exfalso; apply H; right; split; congruence.
  Qed.

  Lemma filter_reset_rep a b f xs ys : rep a b f xs ys -> rep a b (filter_reset zero f) [] [].
  Proof.
    intros (A & B & Sz & Or & Om & Fi & Ob & Lb & W & I).
    unfold rep, filter_reset; cbn [f_a f_b f_sz f_order f_offmax f_fir f_offb f_bufb f_offa f_bufa].
    splits; try first [assumption | lia | apply window_zeros | rewrite zlen_repeat; exact Lb].
    intros Ha. destruct (I Ha) as (La & Oa & Lba & Wa). rewrite Fi.
    destruct a as [|a0 a]; [congruence|].
    repeat split; try lia.
    - rewrite zlen_repeat; exact Lba.
    - apply window_zeros.
  Qed.

  Lemma filter_step_spec a b f xs ys x :
    fir_or_order1 a b -> b <> [] -> rep a b f xs ys -> zlen ys = zlen xs ->
    exists f' y, filter_step f x = OK (f', y) /\
      y = diff_eq_at a b (xs ++ [x]) ys (zlen xs) /\ rep a b f' (xs ++ [x]) (ys ++ [y]).
  Proof.
    intros Hord Hb (A & B & Sz & Or & Om & Fi & Ob & Lb & W & I) Hlen.
    unfold FilterModel.filter_step. rewrite A, B, Sz, Or, Om.
    assert (Hb1 : 1 <= zlen b).
    { destruct b as [|b0 b1]; [congruence|]. rewrite zlen_cons. pose proof (zlen_nonneg b1); lia. }
    destruct (push_front 20 (zlen b) (f_offb f) (f_bufb f) xs x)
      as (offb & bb & bb' & E1 & E2 & Hoffb & Lbb & Wb); try lia; auto.
    rewrite E1. cbn [bind]. rewrite E2. cbn [bind].
    rewrite (for_up_fsum zero add (zlen b) _
               (fun i => mul (Zn b i) (Zn (xs ++ [x]) (zlen xs - i)))).
    2: lia.
    2: { intros i acc Hi. rewrite (aget_OK zero) by lia. cbn [bind].
         rewrite (aget_OK zero) by lia. cbn [bind]. do 3 f_equal.
         rewrite Z.add_comm, Wb by lia. rewrite zlen_app, zlen_1. f_equal; lia. }
    cbn [bind]. rewrite Fi. destruct a as [|a0 a].
    - eexists _, _. split; [reflexivity|]. split; [reflexivity|].
      unfold rep; cbn [f_a f_b f_sz f_order f_offmax f_fir f_offb f_bufb f_offa f_bufa].
      splits; try first [assumption | reflexivity | lia]. congruence.
    - destruct (I ltac:(congruence)) as (La & Oa & Lba & Wa).
      destruct Hord as [Hc|Hord]; [congruence|].
      rewrite (for_up_fsum zero add (zlen b - 1) _
               (fun i => mul (Zn (a0 :: a) (i + 1)) (Zn ys (zlen xs - (i + 1))))).
      2: lia.
      2: { intros i acc Hi. rewrite (aget_OK zero) by lia. cbn [bind].
           rewrite (aget_OK zero) by lia. cbn [bind]. do 3 f_equal.
           rewrite (Z.add_comm i), Wa by lia. f_equal; lia. }
      cbn [bind].
      match goal with |- context [aset _ _ ?v] =>
        destruct (push_front 20 (zlen b - 1) (f_offa f) (f_bufa f) ys v)
          as (offa & ba & ba' & E3 & E4 & Hoffa & Lbaa & Wba); try lia; auto end.
      rewrite E3. cbn [bind]. rewrite E4. cbn [bind].
      eexists _, _. split; [reflexivity|]. split; [reflexivity|].
      unfold rep; cbn [f_a f_b f_sz f_order f_offmax f_fir f_offb f_bufb f_offa f_bufa].
      splits; try first [assumption | reflexivity | lia].
      intros _. splits; try first [assumption | reflexivity | lia].
  Qed.

  Lemma is_response_snoc a b x y v :
    is_response a b x y -> is_response a b (x ++ [v]) (y ++ [diff_eq_at a b (x ++ [v]) y (zlen x)]).
  Proof.
    intros [L H]. split.
    - rewrite !zlen_app, !zlen_1; lia.
    - intros s Hs. rewrite zlen_app, zlen_1 in Hs. rewrite zn_snoc, L.
      destruct (Z.eqb_spec s (zlen x)) as [->|Hne].
      + apply diff_eq_at_ext; [reflexivity|]. intros i Hi. rewrite zn_snoc.
        destruct (Z.eqb_spec i (zlen y)); [lia|reflexivity].
      + rewrite H by lia. apply diff_eq_at_ext; intros i Hi; rewrite zn_snoc.
        * destruct (Z.eqb_spec i (zlen x)); [lia|reflexivity].
        * destruct (Z.eqb_spec i (zlen y)); [lia|reflexivity].
  Qed.

  (** [filled out n ys]: the array [out] after its first elements were overwritten by [ys]. *)
  Definition filled (out ys : list T) : list T := ys ++ skipn (length ys) out.

  Lemma filled_full out ys : zlen ys = zlen out -> filled out ys = ys.
  Proof.
    unfold filled, zlen; intros H. rewrite skipn_all2 by lia. apply app_nil_r.
  Qed.

  Lemma filled_aset out ys v :
    zlen ys < zlen out -> aset (filled out ys) (zlen ys) v = OK (filled out (ys ++ [v])).
  Proof.
    intros H. unfold filled.
    assert (HL : zlen (ys ++ skipn (length ys) out) = zlen out).
    { rewrite zlen_app, zlen_skipn. unfold zlen in *; lia. }
    rewrite aset_OK by (pose proof (zlen_nonneg ys); lia). f_equal.
    apply (zn_ext zero).
    - rewrite zlen_upd, HL, zlen_app, zlen_skipn, app_length. simpl.
      rewrite zlen_app, zlen_1. unfold zlen in *; lia.
    - intros i Hi. rewrite zlen_upd, HL in Hi. rewrite zn_upd by (pose proof (zlen_nonneg ys); lia).
      rewrite !zn_app, !zlen_app, !zlen_1, app_length. simpl length.
      destruct (Z.eqb_spec i (zlen ys)) as [->|].
      + destruct (Z.ltb_spec (zlen ys) (zlen ys + 1)); [|lia].
        rewrite Z.ltb_irrefl, Z.sub_diag. reflexivity.
      + destruct (Z.ltb_spec i (zlen ys)), (Z.ltb_spec i (zlen ys + 1)); try lia; auto.
        rewrite !zn_skipn by lia. f_equal. unfold zlen in *; lia.
  Qed.

  Lemma filter_process_spec a b f xs ys inp out :
    fir_or_order1 a b -> b <> [] -> rep a b f xs ys -> is_response a b xs ys ->
    zlen inp <= zlen out ->
    exists f' zs, filter_process f inp out (zlen inp) = OK (f', filled out zs) /\
      zlen zs = zlen inp /\
      rep a b f' (xs ++ inp) (ys ++ zs) /\ is_response a b (xs ++ inp) (ys ++ zs).
  Proof.
    intros Hord Hb HR HS Hl. unfold FilterModel.filter_process.
    destruct (for_up_inv (fun s '(f', out') => exists zs,
       out' = filled out zs /\ zlen zs = s /\
       rep a b f' (xs ++ firstn (Z.to_nat s) inp) (ys ++ zs) /\
       is_response a b (xs ++ firstn (Z.to_nat s) inp) (ys ++ zs)) 0 (zlen inp)
       (fun s '(f, out) =>
          x <- aget inp s ;; '(f, outval) <- filter_step f x ;;
          out <- aset out s outval ;; OK (f, out)) (f, out)) as ([f' out'] & E & H).
    - apply zlen_nonneg.
    - exists []. simpl firstn. rewrite !app_nil_r. auto.
    - intros i [f1 out1] Hi (zs & -> & Lz & R1 & S1).
      rewrite (aget_OK zero) by lia. cbn [bind].
      destruct (filter_step_spec a b f1 _ _ (Zn inp i) Hord Hb R1) as (f2 & y & E2 & Ey & R2).
      { destruct S1 as [S1 _]; lia. }
      rewrite E2. cbn [bind]. 
      assert (Ea : aset (filled out zs) i y = OK (filled out (zs ++ [y])))
        by (rewrite <- Lz; apply filled_aset; lia).
      rewrite Ea. cbn [bind].
      eexists; split; [reflexivity|]. exists (zs ++ [y]).
      assert (Ef : firstn (Z.to_nat (i + 1)) inp = firstn (Z.to_nat i) inp ++ [Zn inp i]).
      { apply (zn_ext zero).
        - rewrite zlen_app, !zlen_firstn, zlen_1. lia.
        - intros j Hj. rewrite zlen_firstn in Hj. rewrite zn_snoc, zlen_firstn.
          rewrite zn_firstn by lia.
          destruct (Z.eqb_spec j (Z.min (Z.of_nat (Z.to_nat i)) (zlen inp))) as [Ej|Ej].
          + f_equal; lia.
          + rewrite zn_firstn by lia. reflexivity. }
      rewrite Ef, !app_assoc. splits.
      + reflexivity.
      + rewrite zlen_app, zlen_1; lia.
      + exact R2.
      + subst y. apply is_response_snoc. exact S1.
    - destruct H as (zs & -> & Lz & R & S). exists f', zs.
      assert (Ef : firstn (Z.to_nat (zlen inp)) inp = inp) by (unfold zlen; rewrite Nat2Z.id; apply firstn_all).
      rewrite Ef in *. auto.
  Qed.

  (** Running any sequence of blocks. *)
  Lemma filter_run_spec a b calls : forall f xs ys,
    fir_or_order1 a b -> b <> [] -> rep a b f xs ys -> is_response a b xs ys ->
    (forall inp out, In (inp, out) calls -> zlen inp <= zlen out) ->
    exists f' zss, filter_run f calls
                   = OK (f', map (fun p => filled (snd (fst p)) (snd p)) (combine calls zss)) /\
      map zlen zss = map (fun c => zlen (fst c)) calls /\
      rep a b f' (xs ++ concat (map fst calls)) (ys ++ concat zss) /\
      is_response a b (xs ++ concat (map fst calls)) (ys ++ concat zss).
  Proof.
    induction calls as [|[inp out] calls IH]; intros f xs ys Hord Hb HR HS Hl.
    - exists f, []. simpl. rewrite !app_nil_r. auto.
    - cbn [FilterModel.filter_run].
      destruct (filter_process_spec a b f xs ys inp out Hord Hb HR HS) as (f1 & zs & E & Lz & R1 & S1).
      { apply Hl; now left. }
      rewrite E. cbn [bind].
      destruct (IH f1 _ _ Hord Hb R1 S1) as (f2 & zss & E2 & Lzs & R2 & S2).
      { intros i o Hin. apply Hl; now right. }
      rewrite E2. cbn [bind]. exists f2, (zs :: zss). simpl.
      rewrite !app_assoc. splits; auto. now rewrite Lz, Lzs.
  Qed.

  (** *** Packaged statements *)

  Lemma filled_facts out zs n : length zs = n -> (n <= length out)%nat ->
    firstn n (filled out zs) = zs /\ skipn n (filled out zs) = skipn n out /\
    zlen (filled out zs) = zlen out.
  Proof.
    intros <- H. unfold filled. splits.
    - rewrite firstn_app, Nat.sub_diag, firstn_all. simpl. apply app_nil_r.
    - rewrite skipn_app, Nat.sub_diag, skipn_all. reflexivity.
    - zl. unfold zlen in *; lia.
  Qed.

  Lemma run_outs_facts calls : forall zss, room calls ->
    map zlen zss = map (fun c => zlen (fst c)) calls ->
    let outs := map (fun p => filled (snd (fst p)) (snd p)) (combine calls zss) in
    Forall2 rest_untouched calls outs /\ produced calls outs = concat zss.
  Proof.
    induction calls as [|[inp out] calls IH]; intros [|zs zss] Hr Hz; try discriminate; simpl.
    - split; constructor.
    - simpl in Hz. injection Hz as Hz0 Hz.
      destruct (IH zss) as [I1 I2]; auto.
      { intros i o Hi. apply Hr; now right. }
      specialize (Hr inp out (or_introl eq_refl)).
      destruct (filled_facts out zs (length inp)) as (F1 & F2 & F3); try (unfold zlen in *; lia).
      split.
      + constructor; [split; assumption|exact I1].
      + unfold produced. simpl. rewrite F1. f_equal. exact I2.
  Qed.

  Lemma accepted_b a b : @accepted T a b -> b <> [].
  Proof.
    intros [[_ H]|[Ha Hl]]; auto. intros ->. destruct a; [congruence|].
    rewrite zlen_cons in Hl. pose proof (zlen_nonneg a). zl. lia.
  Qed.

  Lemma is_response_nil a b : is_response a b [] [].
  Proof. split; [reflexivity|]. intros s Hs. zl. lia. Qed.

  Lemma filter_stream a b calls :
    accepted a b -> fir_or_order1 a b -> room calls ->
    exists f f' outs,
      filter_new a b = OK f /\ filter_run f calls = OK (f', outs) /\
      Forall2 rest_untouched calls outs /\
      is_response a b (concat (map fst calls)) (produced calls outs).
  Proof.
    intros Hacc Hord Hr. destruct (filter_new_rep a b Hacc) as (f & E & R).
    destruct (filter_run_spec a b calls f [] [] Hord (accepted_b a b Hacc) R (is_response_nil a b) Hr)
      as (f' & zss & E2 & Lz & R2 & S2).
    destruct (run_outs_facts calls zss Hr Lz) as [U P].
    exists f, f'. eexists. splits; eauto. rewrite P. exact S2.
  Qed.

  (** How the stream is cut into calls does not matter. *)
  Lemma filter_cut_independent a b calls1 calls2 f1 outs1 f2 outs2 f :
    accepted a b -> fir_or_order1 a b -> room calls1 -> room calls2 ->
    concat (map fst calls1) = concat (map fst calls2) ->
    filter_new a b = OK f ->
    filter_run f calls1 = OK (f1, outs1) -> filter_run f calls2 = OK (f2, outs2) ->
    produced calls1 outs1 = produced calls2 outs2.
  Proof.
    intros Hacc Hord Hr1 Hr2 Hc Hn E1 E2.
    destruct (filter_stream a b calls1 Hacc Hord Hr1) as (g & g1 & o1 & N1 & R1 & _ & S1).
    destruct (filter_stream a b calls2 Hacc Hord Hr2) as (g' & g2 & o2 & N2 & R2 & _ & S2).
    rewrite Hn in N1, N2. injection N1 as <-. injection N2 as <-.
    rewrite E1 in R1. injection R1 as <- <-. rewrite E2 in R2. injection R2 as <- <-.
    rewrite <- Hc in S2. eapply response_unique; eauto.
  Qed.

  (** *** Histories with resets *)
  Lemma filter_ops_rep a b ops : forall f xs ys,
    fir_or_order1 a b -> b <> [] -> rep a b f xs ys -> is_response a b xs ys -> ops_room ops ->
    exists f' xs' ys' outs, filter_ops zero add sub mul f ops = OK (f', outs) /\
      rep a b f' xs' ys' /\ is_response a b xs' ys'.
  Proof.
    induction ops as [|[inp out|] ops IH]; intros f xs ys Hord Hb HR HS Hr.
    - exists f, xs, ys, []. auto.
    - cbn [filter_ops].
      destruct (filter_process_spec a b f xs ys inp out Hord Hb HR HS) as (f1 & zs & E & Lz & R1 & S1).
      { apply Hr; now left. }
      rewrite E. cbn [bind].
      destruct (IH f1 _ _ Hord Hb R1 S1) as (f2 & xs' & ys' & outs & E2 & R2 & S2).
      { intros i o Hin. apply Hr; now right. }
      rewrite E2. cbn [bind]. eexists f2, xs', ys', _. splits; eauto.
    - cbn [filter_ops]. apply (IH (filter_reset zero f) [] []); auto.
      + eapply filter_reset_rep; eauto.
      + apply is_response_nil.
      + intros i o Hin. apply Hr; now right.
  Qed.

  Lemma concat_zlen_inj (l1 l2 : list (list T)) :
    map zlen l1 = map zlen l2 -> concat l1 = concat l2 -> l1 = l2.
  Proof.
    revert l2; induction l1 as [|x l1 IH]; intros [|y l2] Hm Hc; try discriminate; auto.
    simpl in *. injection Hm as Hx Hm.
    assert (length x = length y) by (unfold zlen in Hx; lia).
    assert (x = y /\ concat l1 = concat l2) as [-> H2].
    { clear -Hc H. revert y H Hc. induction x as [|a x IH]; intros [|b y] H Hc; try discriminate; auto.
      simpl in *. injection Hc as -> Hc. destruct (IH y) as [-> ?]; auto. }
    f_equal. apply IH; auto.
  Qed.

  Lemma filter_reset_fresh a b ops calls f f1 outs1 :
    accepted a b -> fir_or_order1 a b -> ops_room ops -> room calls ->
    filter_new a b = OK f ->
    filter_ops zero add sub mul f ops = OK (f1, outs1) ->
    exists f2 f3 outs, filter_run (filter_reset zero f1) calls = OK (f2, outs) /\
                       filter_run f calls = OK (f3, outs).
  Proof.
    intros Hacc Hord Ho Hr Hn E.
    destruct (filter_new_rep a b Hacc) as (f0 & E0 & R0).
    rewrite Hn in E0. injection E0 as <-.
    pose proof (accepted_b a b Hacc) as Hb.
    destruct (filter_ops_rep a b ops f [] [] Hord Hb R0 (is_response_nil a b) Ho)
      as (f1' & xs & ys & outs1' & E1 & R1 & S1).
    rewrite E in E1. injection E1 as <- <-.
    apply filter_reset_rep in R1.
    destruct (filter_run_spec a b calls _ [] [] Hord Hb R1 (is_response_nil a b) Hr)
      as (f2 & zss & E2 & Lz & R2 & S2).
    destruct (filter_run_spec a b calls _ [] [] Hord Hb R0 (is_response_nil a b) Hr)
      as (f3 & zss' & E3 & Lz' & R3 & S3).
    simpl in S2, S3. pose proof (response_unique _ _ _ _ _ S2 S3) as Hc.
    assert (zss = zss') as <- by (apply concat_zlen_inj; congruence).
    eauto.
  Qed.

  (** Memory safety for FIR filters and IIR filters of order >= 1. *)
  Lemma filter_safe a b ops :
    accepted a b -> fir_or_order1 a b -> ops_room ops ->
    exists f f' outs, filter_new a b = OK f /\ filter_ops zero add sub mul f ops = OK (f', outs).
  Proof.
    intros Hacc Hord Ho. destruct (filter_new_rep a b Hacc) as (f & E & R).
    destruct (filter_ops_rep a b ops f [] [] Hord (accepted_b a b Hacc) R (is_response_nil a b) Ho)
      as (f' & xs & ys & outs & E2 & _). exists f, f', outs. auto.
  Qed.

  (** Every IIR filter of order 0 writes outside its buffer on the 21st sample. *)
  Definition shape0 (a0 b0 : T) (o : Z) (f : filter T) : Prop :=
    f_order f = 0 /\ f_sz f = 1 /\ f_a f = [a0] /\ f_b f = [b0] /\ zlen (f_bufa f) = 20 /\
    zlen (f_bufb f) = 21 /\ f_offa f = o /\ f_offb f = o /\ f_offmax f = 20 /\ f_fir f = false.

  Lemma step0 a0 b0 o f x : 0 <= o <= 20 -> shape0 a0 b0 o f ->
    (0 < o -> exists f' y, filter_step f x = OK (f', y) /\ shape0 a0 b0 (o - 1) f') /\
    (o = 0 -> filter_step f x = UB).
  Proof.
    intros Ho (H1 & H2 & H3 & H4 & H5 & H6 & H7 & H8 & H9 & H10).
    unfold FilterModel.filter_step. rewrite H1, H2, H3, H4, H7, H8, H9, H10. unfold make_room.
    change (shift_back 20 (1 - 2)) with (fun b : list T => OK b).
    change (shift_back 20 (0 - 2)) with (fun b : list T => OK b).
    split; intros Hp.
    - rewrite (proj2 (Z.ltb_lt _ _)) by lia. cbn [bind].
      rewrite aset_OK by lia. cbn [bind]. unfold for_up at 1.
      change (Z.to_nat (1 - 0)) with 1%nat. cbn [for_n].
      change (aget [b0] 0) with (OK b0). cbn [bind].
      rewrite (aget_OK zero) by (rewrite zlen_upd; lia). cbn [bind].
      rewrite for_up_empty by lia. cbn [bind].
      rewrite aset_OK by lia. cbn [bind]. eexists _, _. split; [reflexivity|].
      unfold shape0; cbn [f_a f_b f_sz f_order f_offmax f_fir f_offb f_bufb f_offa f_bufa].
      rewrite !zlen_upd. splits; auto.
    - subst o. rewrite Hp. cbn [Z.ltb Z.compare bind].
      rewrite aset_OK by lia. cbn [bind]. unfold for_up at 1.
      change (Z.to_nat (1 - 0)) with 1%nat. cbn [for_n].
      change (aget [b0] 0) with (OK b0). cbn [bind].
      rewrite (aget_OK zero) by (rewrite zlen_upd; lia). cbn [bind].
      rewrite for_up_empty by lia. cbn [bind].
      unfold aset. rewrite H5. reflexivity.
  Qed.

  Lemma filter_order0_UB a0 b0 inp out : 21 <= zlen inp -> zlen inp <= zlen out ->
    exists f, filter_new [a0] [b0] = OK f /\ filter_process f inp out (zlen inp) = UB.
  Proof.
    intros Hi Ho. eexists; split; [reflexivity|].
    unfold FilterModel.filter_process. rewrite (for_up_split 0 20) by lia.
    match goal with |- context [for_up 0 20 ?F ?S] =>
      destruct (for_up_inv (fun s '(f, o) => shape0 a0 b0 (20 - s) f /\ zlen o = zlen out) 0 20 F S)
        as ([f' o'] & E & H & L); [lia| |intros s [f o] Hs [Sh Lo]|] end.
    - split; [|reflexivity]. unfold shape0; cbn; splits; reflexivity.
    - rewrite (aget_OK zero) by lia. cbn [bind].
      destruct (step0 a0 b0 (20 - s) f (Zn inp s) ltac:(lia) Sh) as [(f' & y & E & S') _]; [lia|].
      rewrite E. cbn [bind]. rewrite aset_OK by lia. cbn [bind]. eexists; split; [reflexivity|].
      cbn beta iota. rewrite zlen_upd. split; [|exact Lo].
      replace (20 - (s + 1)) with (20 - s - 1) by lia. exact S'.
    - rewrite E. cbn [bind]. rewrite for_up_first by lia. cbn [bind].
      rewrite (aget_OK zero) by lia. cbn [bind].
      destruct (step0 a0 b0 (20 - 20) f' (Zn inp 20) ltac:(lia) H) as [_ HU].
      rewrite HU by lia. reflexivity.
  Qed.

End Proofs.
