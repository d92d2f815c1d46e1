From Coq Require Import List ZArith Lia Bool.
From Verif.Base Require Import Imp Sums.
From Verif.Signal Require Import FilterModel FilterSpec FilterProofs FiltFiltModel FiltFiltSpec.
Import ListNotations.
Open Scope Z_scope.

Section Proofs.
  Context {T : Type} (zero two : T) (add sub mul : T -> T -> T).
  Notation Zn := (zn zero).
  Notation is_response := (is_response zero add sub mul).
  Notation rep := (rep zero).
  Notation chained := (chained zero two add sub mul).

  (** Closed form of the three loops that build the extended signal. *)
  Lemma build_extended src p :
    0 <= p -> 0 < zlen src ->
    let length := zlen src in
    let nExt := length + 2 * p in
    let sample0 := mul two (Zn src 0) in
    let sampleN := mul two (Zn src (length - 1)) in
    ('(_, sc) <- for_down p 1 (fun i '(index, sc) =>
        sc <- (if i <? length then v <- aget src i ;; aset sc index (sub sample0 v) else OK sc) ;;
        OK (index + 1, sc)) (0, repeat zero (Z.to_nat nExt)) ;;
    '(_, sc) <- for_up 0 p (fun i '(index, sc) =>
        sc <- (if i + 1 <? length then
                 v <- aget src ((length - 2) - i) ;;
                 aset sc ((nExt - p) + index) (sub sampleN v) else OK sc) ;;
        OK (index + 1, sc)) (0, sc) ;;
    for_up 0 length (fun i sc => v <- aget src i ;; aset sc (i + p) v) sc)
    = OK (extended zero two sub mul p src).
  Proof.
    intros Hp Hl length nExt sample0 sampleN.
    (* first loop *)
    match goal with |- context [for_down p 1 ?F ?S] =>
      destruct (for_down_inv (fun i '(index, sc) => index = p - i /\ zlen sc = nExt /\
         forall k, 0 <= k < nExt ->
           Zn sc k = if k <? p - i then reflect_at zero two sub mul src (k - p) else zero) p 1 F S)
        as ([ix1 sc1] & E1 & _ & L1 & H1); [lia| | |] end.
    { splits; [lia | zl; lia |]. intros k Hk. rewrite zn_repeat.
      destruct (Z.ltb_spec k (p - p)); [lia|reflexivity]. }
    { intros i [index sc] Hi (-> & L & H).
      destruct (Z.ltb_spec i length) as [Hil|Hil].
      - rewrite (aget_OK zero) by (fold length; lia). cbn [bind].
        rewrite aset_OK by lia. cbn [bind]. eexists; split; [reflexivity|].
        cbn beta iota. splits; [lia | now rewrite zlen_upd |].
        intros k Hk. rewrite zn_upd by lia.
        destruct (Z.eqb_spec k (p - i)) as [->|Hne].
        + destruct (Z.ltb_spec (p - i) (p - (i - 1))); [|lia].
          unfold reflect_at. fold length.
          destruct (Z.ltb_spec (p - i - p) 0); [|lia].
          destruct (Z.ltb_spec (- (p - i - p)) length); [|lia].
          unfold sample0. do 2 f_equal; lia.
        + rewrite H by lia.
          destruct (Z.ltb_spec k (p - i)), (Z.ltb_spec k (p - (i - 1))); auto; lia.
      - cbn [bind]. eexists; split; [reflexivity|]. cbn beta iota. splits; [lia|exact L|].
        intros k Hk. rewrite H by lia.
        destruct (Z.ltb_spec k (p - i)), (Z.ltb_spec k (p - (i - 1))); auto; try lia.
        unfold reflect_at. fold length.
        destruct (Z.ltb_spec (k - p) 0); [|lia].
        destruct (Z.ltb_spec (- (k - p)) length); [lia|reflexivity]. }
    rewrite E1. cbn [bind].
    (* second loop *)
    match goal with |- context [for_up 0 p ?F ?S] =>
      destruct (for_up_inv (fun i '(index, sc) => index = i /\ zlen sc = nExt /\
         forall k, 0 <= k < nExt ->
           Zn sc k = if (k <? p) || ((p + length <=? k) && (k <? p + length + i))
                     then reflect_at zero two sub mul src (k - p) else zero) 0 p F S)
        as ([ix2 sc2] & E2 & _ & L2 & H2); [lia| | |] end.
    { splits; [lia | exact L1 |]. intros k Hk. rewrite H1 by lia.
      replace (p - (1 - 1)) with p by lia.
      destruct (Z.ltb_spec k p), (Z.leb_spec (p + length) k), (Z.ltb_spec k (p + length + 0));
        simpl; auto; lia. }
    { intros i [index sc] Hi (-> & L & H).
      destruct (Z.ltb_spec (i + 1) length) as [Hil|Hil].
      - rewrite (aget_OK zero) by (fold length; lia). cbn [bind].
        rewrite aset_OK by lia. cbn [bind]. eexists; split; [reflexivity|].
        cbn beta iota. splits; [lia | now rewrite zlen_upd |].
        intros k Hk. rewrite zn_upd by lia.
        destruct (Z.eqb_spec k (nExt - p + i)) as [->|Hne].
        + destruct (Z.ltb_spec (nExt - p + i) p); [lia|].
          destruct (Z.leb_spec (p + length) (nExt - p + i)); [|lia].
          destruct (Z.ltb_spec (nExt - p + i) (p + length + (i + 1))); [|lia]. simpl.
          unfold reflect_at. fold length.
          destruct (Z.ltb_spec (nExt - p + i - p) 0); [lia|].
          destruct (Z.ltb_spec (nExt - p + i - p) length); [lia|].
          destruct (Z.ltb_spec (nExt - p + i - p - length + 1) length); [|lia].
          unfold sampleN. do 2 f_equal; lia.
        + rewrite H by lia.
          destruct (Z.ltb_spec k p), (Z.leb_spec (p + length) k), (Z.ltb_spec k (p + length + i)),
            (Z.ltb_spec k (p + length + (i + 1))); simpl; auto; lia.
      - cbn [bind]. eexists; split; [reflexivity|]. cbn beta iota. splits; [lia|exact L|].
        intros k Hk. rewrite H by lia.
        destruct (Z.ltb_spec k p), (Z.leb_spec (p + length) k), (Z.ltb_spec k (p + length + i)),
            (Z.ltb_spec k (p + length + (i + 1))); simpl; auto; try lia.
        unfold reflect_at. fold length.
        destruct (Z.ltb_spec (k - p) 0); [lia|].
        destruct (Z.ltb_spec (k - p) length); [lia|].
        destruct (Z.ltb_spec (k - p - length + 1) length); [lia|reflexivity]. }
    rewrite E2. cbn [bind].
    (* third loop *)
    match goal with |- for_up 0 length ?F ?S = _ =>
      destruct (for_up_inv (fun i sc => zlen sc = nExt /\
         forall k, 0 <= k < nExt ->
           Zn sc k = if (k <? p + i) || (p + length <=? k)
                     then reflect_at zero two sub mul src (k - p) else zero) 0 length F S)
        as (sc3 & E3 & L3 & H3); [lia| | |] end.
    { splits; [exact L2 |]. intros k Hk. rewrite H2 by lia.
      destruct (Z.ltb_spec k p), (Z.leb_spec (p + length) k), (Z.ltb_spec k (p + 0)),
         (Z.ltb_spec k (p + length + p)); simpl; auto; lia. }
    { intros i sc Hi (L & H).
      rewrite (aget_OK zero) by (fold length; lia). cbn [bind].
      rewrite aset_OK by lia. eexists; split; [reflexivity|].
      splits; [now rewrite zlen_upd |].
      intros k Hk. rewrite zn_upd by lia.
      destruct (Z.eqb_spec k (i + p)) as [->|Hne].
      - destruct (Z.ltb_spec (i + p) (p + (i + 1))); [|lia]. simpl.
        unfold reflect_at. fold length.
        destruct (Z.ltb_spec (i + p - p) 0); [lia|].
        destruct (Z.ltb_spec (i + p - p) length); [|lia]. f_equal; lia.
      - rewrite H by lia.
        destruct (Z.ltb_spec k (p + i)), (Z.ltb_spec k (p + (i + 1))), (Z.leb_spec (p + length) k);
          simpl; auto; lia. }
    rewrite E3. f_equal. unfold extended. fold length nExt.
    apply (zn_ext zero); [zl; lia|]. intros i Hi. rewrite zn_ztab by lia.
    rewrite H3 by lia.
    destruct (Z.ltb_spec i (p + length)), (Z.leb_spec (p + length) i); simpl; auto; lia.
  Qed.

  Lemma reverse_loop (out sc : list T) n : zlen out = n -> zlen sc = n ->
    for_up 0 n (fun i sc => v <- aget out (n - i - 1) ;; aset sc i v) sc = OK (rev out).
  Proof.
    intros Lo Ls. pose proof (zlen_nonneg out).
    rewrite (for_up_ext _ _ _ (fun i sc => aset sc i (Zn out (n - i - 1)))).
    2: { intros i s Hi. now rewrite (aget_OK zero) by lia. }
    destruct (for_up_fill zero 0 n (fun i => Zn out (n - i - 1)) sc) as (l' & E & L & H'); try lia.
    rewrite E. f_equal. apply (zn_ext zero); [zl; lia|].
    intros i Hi. rewrite H' by lia. rewrite zn_rev by lia.
    destruct (Z.leb_spec 0 i), (Z.ltb_spec i n); simpl; try lia. f_equal; lia.
  Qed.

  (** One call of process, in any state of the object. *)
  Lemma filtfilt_process_spec a b ff xs ys src dst :
    fir_or_order1 a b -> b <> [] -> ff_ord ff = zlen b - 1 ->
    rep a b (ff_filter ff) xs ys -> is_response a b xs ys ->
    0 < zlen src <= zlen dst ->
    let p := 3 * (zlen b - 1) in
    exists ff' y z,
      filtfilt_process zero two add sub mul ff src dst (zlen src)
        = OK (ff', firstn (length src) (skipn (Z.to_nat p) (rev z)) ++ skipn (length src) dst) /\
      zlen y = zlen src + 2 * p /\
      is_response a b (xs ++ extended zero two sub mul p src) (ys ++ y) /\
      is_response a b (rev y) z /\
      ff_ord ff' = zlen b - 1 /\ rep a b (ff_filter ff') (rev y) z.
  Proof.
    intros Hord Hb Ho R S Hl p. unfold filtfilt_process.
    destruct (Z.eqb_spec (zlen src) 0); [lia|].
    rewrite Ho. replace (zlen b - 1 + 1 - 1) with (zlen b - 1) by lia. fold p.
    assert (Hp : 0 <= p).
    { destruct b; [congruence|]. unfold p. rewrite zlen_cons. pose proof (zlen_nonneg b); lia. }
    rewrite (aget_OK zero src 0) by lia. cbn [bind].
    rewrite (aget_OK zero src (zlen src - 1)) by lia. cbn [bind].
    pose proof (build_extended src p Hp ltac:(lia)) as BE. cbn zeta in BE.
    set (ext := extended zero two sub mul p src) in *.
    assert (Lext : zlen ext = zlen src + 2 * p) by (unfold ext, extended; zl; lia).
    (* collapse the three construction loops *)
    match type of BE with bind ?X ?K = _ =>
      match goal with |- context [bind X ?K2] =>
        destruct X as [[i1 sc1]| | |] eqn:EX; try discriminate BE end end.
    cbn [bind] in BE |- *.
    match type of BE with bind ?X ?K = _ =>
      match goal with |- context [bind X ?K2] =>
        destruct X as [[i2 sc2]| | |] eqn:EX2; try discriminate BE end end.
    cbn [bind] in BE |- *. rewrite BE. cbn [bind].
    (* forward pass *)
    set (nExt := zlen src + 2 * p) in *.
    destruct (filter_process_spec zero add sub mul a b (ff_filter ff) xs ys ext
                (repeat zero (Z.to_nat nExt)) Hord Hb R S) as (f1 & y & E1 & Ly & R1 & S1); [zl; lia|].
    rewrite Lext in E1. rewrite E1. cbn [bind].
    rewrite filled_full by (zl; lia).
    rewrite reverse_loop by lia. cbn [bind].
    (* backward pass *)
    destruct (filter_process_spec zero add sub mul a b (filter_reset zero f1) [] [] (rev y)
                y Hord Hb ltac:(eapply filter_reset_rep; eauto)
                (is_response_nil zero add sub mul a b)) as (f2 & z & E2 & Lz & R2 & S2); [zl; lia|].
    rewrite zlen_rev in E2. replace (zlen y) with nExt in E2 by lia. rewrite E2. cbn [bind].
    rewrite filled_full by (zl; lia). rewrite zlen_rev in Lz.
    (* copy out *)
    rewrite (for_up_ext _ _ _ (fun i d => aset d i (Zn z (nExt - p - i - 1)))).
    2: { intros i s Hi. now rewrite (aget_OK zero) by lia. }
    destruct (for_up_fill zero 0 (zlen src) (fun i => Zn z (nExt - p - i - 1)) dst)
      as (l' & E & L & H'); try lia.
    rewrite E. cbn [bind].
    exists {| ff_filter := f2; ff_ord := zlen b - 1 |}, y, z. cbn [ff_ord ff_filter].
    simpl app in R2, S2.
    splits; auto; [|lia].
    do 2 f_equal. apply (zn_ext zero).
    - zl. unfold zlen in *; lia.
    - intros i Hi. rewrite H' by lia. rewrite zn_app.
      zl. replace (Z.min (Z.of_nat (length src)) _) with (zlen src) by (unfold zlen in *; lia).
      destruct (Z.leb_spec 0 i), (Z.ltb_spec i (zlen src)); simpl; try lia.
      + rewrite zn_firstn by (unfold zlen in *; lia). rewrite zn_skipn by lia.
        rewrite zn_rev by lia. f_equal; lia.
      + rewrite zn_skipn by lia. f_equal. unfold zlen; lia.
  Qed.

  Lemma extended_nil p : 0 <= p -> zlen (extended zero two sub mul p []) = 2 * p.
  Proof. intros H. unfold extended. zl. lia. Qed.

  (** The first call on a new object is exactly zero-phase filtering. *)
  Lemma filtfilt_first_call a b src dst :
    accepted a b -> fir_or_order1 a b -> 0 < zlen src <= zlen dst ->
    exists ff ff' r, filtfilt_new zero a b = OK ff /\
      filtfilt_process zero two add sub mul ff src dst (zlen src)
        = OK (ff', r ++ skipn (length src) dst) /\
      zlen r = zlen src /\ zero_phase zero two add sub mul a b src r.
  Proof.
    intros Hacc Hord Hl.
    destruct (filter_new_rep zero a b Hacc) as (f & E & R).
    unfold filtfilt_new. rewrite E. cbn [bind].
    assert (Hor : f_order f = zlen b - 1) by (destruct R as (_&_&_&H&_); exact H).
    destruct (filtfilt_process_spec a b {| ff_filter := f; ff_ord := f_order f |} [] [] src dst)
      as (ff' & y & z & E2 & Ly & S1 & S2 & _ & _); auto.
    { eapply accepted_b; eauto. }
    { apply is_response_nil. }
    eexists _, ff', _. split; [reflexivity|]. split; [exact E2|].
    assert (Hz : zlen z = zlen src + 2 * (3 * (zlen b - 1))).
    { destruct S2 as [S2 _]. rewrite S2. zl. lia. }
    assert (1 <= zlen b).
    { pose proof (accepted_b a b Hacc) as Hb. destruct b; [congruence|]. zl. pose proof (zlen_nonneg b). lia. }
    split.
    - zl. unfold zlen in *; lia.
    - exists y, z. auto.
  Qed.

  (** Length 0: nothing is read or written. *)
  Lemma filtfilt_empty ff src dst : filtfilt_process zero two add sub mul ff src dst 0 = OK (ff, dst).
  Proof. reflexivity. Qed.

  Lemma filtfilt_run_chained a b calls : forall ff xs ys,
    fir_or_order1 a b -> b <> [] -> ff_ord ff = zlen b - 1 ->
    rep a b (ff_filter ff) xs ys -> is_response a b xs ys ->
    (forall src dst, In (src, dst) calls -> 0 < zlen src <= zlen dst) ->
    exists rs, filtfilt_run zero two add sub mul ff calls
        = OK (map (fun p => snd p ++ skipn (length (snd p)) (snd (fst p))) (combine calls rs)) /\
      chained a b xs ys (map fst calls) rs.
  Proof.
    induction calls as [|[src dst] calls IH]; intros ff xs ys Hord Hb Ho R S Hl.
    - exists []. split; [reflexivity|exact I].
    - cbn [filtfilt_run].
      destruct (filtfilt_process_spec a b ff xs ys src dst Hord Hb Ho R S)
        as (ff' & y & z & E & Ly & S1 & S2 & Ho' & R').
      { apply Hl; now left. }
      rewrite E. cbn [bind].
      destruct (IH ff' (rev y) z Hord Hb Ho' R' S2) as (rs & E2 & C).
      { intros s d Hin. apply Hl; now right. }
      rewrite E2. cbn [bind].
      exists (firstn (length src) (skipn (Z.to_nat (3 * (zlen b - 1))) (rev z)) :: rs).
      assert (Hz : zlen z = zlen src + 2 * (3 * (zlen b - 1))).
      { destruct S2 as [S2 _]. rewrite S2. zl. lia. }
      assert (1 <= zlen b).
      { destruct b; [congruence|]. zl. pose proof (zlen_nonneg b). lia. }
      assert (Hlen : length (firstn (length src) (skipn (Z.to_nat (3 * (zlen b - 1))) (rev z))) = length src).
      { rewrite firstn_length, skipn_length, rev_length. unfold zlen in *; lia. }
      split.
      + cbn [combine map fst snd]. rewrite Hlen. reflexivity.
      + cbn [map fst chained]. exists y, z. splits; auto.
  Qed.

  Lemma filtfilt_every_call a b calls :
    accepted a b -> fir_or_order1 a b ->
    (forall src dst, In (src, dst) calls -> 0 < zlen src <= zlen dst) ->
    exists ff rs, filtfilt_new zero a b = OK ff /\
      filtfilt_run zero two add sub mul ff calls
        = OK (map (fun p => snd p ++ skipn (length (snd p)) (snd (fst p))) (combine calls rs)) /\
      chained a b [] [] (map fst calls) rs.
  Proof.
    intros Hacc Hord Hl.
    destruct (filter_new_rep zero a b Hacc) as (f & E & R).
    unfold filtfilt_new. rewrite E. cbn [bind].
    assert (Hor : f_order f = zlen b - 1) by (destruct R as (_&_&_&H&_); exact H).
    destruct (filtfilt_run_chained a b calls {| ff_filter := f; ff_ord := f_order f |} [] [])
      as (rs & E2 & C); auto.
    { eapply accepted_b; eauto. }
    { apply is_response_nil. }
    eexists _, rs. split; [reflexivity|]. auto.
  Qed.
End Proofs.
