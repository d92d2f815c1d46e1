(** viterbi_decode. *)
From Coq Require Import List ZArith Lia Bool.
From Verif.Base Require Import Imp Loops Matrix.
From Verif.Hmm Require Import HmmModel HmmSpec.
Import ListNotations.
Open Scope Z_scope.

Section Viterbi.
  Context {P T : Type} (lg : P -> T) (add : T -> T -> T) (gtb : T -> T -> bool) (le : T -> T -> Prop).
  Hypothesis le_refl : forall x, le x x.
  Hypothesis le_trans : forall x y z, le x y -> le y z -> le x z.
  Hypothesis gtb_true : forall x y, gtb x y = true -> le y x.
  Hypothesis gtb_false : forall x y, gtb x y = false -> le x y.
  Hypothesis add_mono : forall x y z, le x y -> le (add x z) (add y z).
  Variables (low junk : T) (junkZ : Z) (dP : P).

  Variables (N Tn : Z) (p0 : list P) (a : list (list P)) (logb : list (list T)).
  Hypothesis HN : 1 <= N.
  Hypothesis HT : 1 <= Tn.
  Hypothesis Hp0 : zlen p0 = N.
  Hypothesis Ha : shape N N a.
  Hypothesis Hb : shape Tn N logb.

  Let l0 i := lg (zn dP p0 i).
  Let la i j := lg (ent dP a i j).
  Let lb t j := ent junk logb t j.

  (** What the recursion leaves in the two tables up to time [t]. *)
  Definition tables (n : Z) (phi : list (list T)) (psi : list (list Z)) : Prop :=
    shape Tn N phi /\ shape Tn N psi /\
    (forall j, 0 <= j < N -> ent junk phi 0 j = add (l0 j) (lb 0 j)) /\
    forall t j, 1 <= t < n -> 0 <= j < N -> let i := ent junkZ psi t j in
      0 <= i < N /\ ent junk phi t j = add (add (ent junk phi (t - 1) i) (la i j)) (lb t j) /\
      forall i', 0 <= i' < N -> le (add (ent junk phi (t - 1) i') (la i' j)) (add (ent junk phi (t - 1) i) (la i j)).

  Lemma shape_upd {A} n k (m : list (list A)) t r : shape n k m -> 0 <= t < n -> zlen r = k -> shape n k (upd m (Z.to_nat t) r).
  Proof.
    intros [L R] Ht Lr. split; [zl; lia|]. intros i Hi. rewrite zn_upd by lia. zcase; auto.
  Qed.
  Lemma ent_upd {A} (d : A) n k (m : list (list A)) t r s j : shape n k m -> 0 <= t < n -> 0 <= s ->
    ent d (upd m (Z.to_nat t) r) s j = if s =? t then zn d r j else ent d m s j.
  Proof. intros [L R] Ht Hs. unfold ent. rewrite zn_upd by lia. now destruct (s =? t). Qed.

  Lemma tables_ok : exists phi psi,
    viterbi_tables lg add gtb low junk junkZ N Tn p0 a logb = OK (phi, psi) /\ tables Tn phi psi.
  Proof.
    unfold viterbi_tables. cbv zeta. set (phi0 := repeat (repeat junk _) _). set (psi0 := repeat (repeat junkZ _) _).
    assert (S1 : shape Tn N phi0) by (apply shape_repeat; lia).
    assert (S2 : shape Tn N psi0) by (apply shape_repeat; lia).
    rewrite (aget_OK [] phi0), (aget_OK [] psi0) by (destruct S1, S2; lia). cbn [bind].
    match goal with |- context [for_up 0 N ?F ?S] =>
      destruct (for_up_inv (fun i '((r, s) : list T * list Z) => zlen r = N /\ zlen s = N /\
        forall j, 0 <= j < i -> zn junk r j = add (l0 j) (lb 0 j)) 0 N F S) as ([r s] & E & Lr & Ls & V) end.
    - lia.
    - splits; [apply S1; lia|apply S2; lia|intros; lia].
    - intros i [r s] Hi (Lr & Ls & V). rewrite (aget_OK dP) by lia. cbn [bind].
      rewrite (mget_OK junk Tn N) by (auto; lia). cbn [bind]. rewrite !aset_OK by lia. cbn [bind].
      eexists; split; [reflexivity|]. cbv beta iota. splits; try (zl; lia).
      intros j Hj. rewrite zn_upd by lia. zcase; [subst; reflexivity|]. apply V. lia.
    - rewrite E. cbn [bind]. clear E. rewrite !aset_OK by (destruct S1, S2; lia). cbn [bind].
      match goal with |- context [for_up 1 Tn ?F ?S] =>
        destruct (for_up_inv (fun t '((phi, psi) : list (list T) * list (list Z)) => tables t phi psi) 1 Tn F S)
          as ([phi psi] & E & HI) end.
      + lia.
      + unfold tables. splits; try (apply shape_upd; auto; lia).
        * intros j Hj. rewrite (ent_upd _ Tn N) by (auto; lia). zcase. apply V. lia.
        * intros; lia.
      + intros t [phi psi] Ht (T1 & T2 & T3 & T4).
        rewrite !(aget_OK []) by (destruct T1, T2; lia). cbn [bind].
        set (prev := zn [] phi (t - 1)). assert (Lp : zlen prev = N) by (apply T1; lia).
        match goal with |- context [for_up 0 N ?F ?S] =>
          destruct (for_up_inv (fun k '((r, s) : list T * list Z) => zlen r = N /\ zlen s = N /\
            forall j, 0 <= j < k -> let i := zn junkZ s j in
              0 <= i < N /\ zn junk r j = add (add (zn junk prev i) (la i j)) (lb t j) /\
              forall i', 0 <= i' < N -> le (add (zn junk prev i') (la i' j)) (add (zn junk prev i) (la i j))) 0 N F S)
            as ([r' s'] & E & Lr' & Ls' & V') end.
        * lia.
        * splits; [apply T1; lia|apply T2; lia|intros; lia].
        * intros j [r1 s1] Hj (Lr1 & Ls1 & V1). rewrite aset_OK by lia. cbn [bind].
          match goal with |- context [for_up 0 N ?F ?S] =>
            destruct (for_up_inv (fun k '((mx, have, r, s) : T * bool * list T * list Z) => zlen r = N /\ zlen s = N /\
              (forall j', 0 <= j' < j -> zn junk r j' = zn junk r1 j' /\ zn junkZ s j' = zn junkZ s1 j') /\
              have = (0 <? k) /\ (0 < k -> let i := zn junkZ s j in 0 <= i < k /\
                mx = add (zn junk prev i) (la i j) /\ zn junk r j = add mx (lb t j) /\
                forall i', 0 <= i' < k -> le (add (zn junk prev i') (la i' j)) mx)) 0 N F S)
              as ([[[mx have] r2] s2] & E2 & Lr2 & Ls2 & O2 & _ & V2) end.
          -- lia.
          -- splits; auto; try (zl; lia); try reflexivity; try (intros; lia). intros j' Hj'. split; auto.
             rewrite zn_upd by lia. zcase. reflexivity.
          -- intros i [[[mx have] r2] s2] Hi (Lr2 & Ls2 & O2 & -> & V2).
             rewrite (aget_OK junk) by lia. cbn [bind]. rewrite (mget_OK dP N N) by (auto; lia). cbn [bind].
             fold (la i j). set (v := add (zn junk prev i) (la i j)).
             destruct (gtb v mx || negb (0 <? i)) eqn:G.
             ++ rewrite (mget_OK junk Tn N) by (auto; lia). cbn [bind]. rewrite !aset_OK by lia. cbn [bind].
                eexists; split; [reflexivity|]. cbv beta iota. splits; try (zl; lia).
                ** intros j' Hj'. rewrite !zn_upd by lia. zcase. apply O2. lia.
                ** intros _. cbv zeta. rewrite !zn_upd by lia. zcase. splits; auto; try lia.
                   intros i' Hi'. destruct (Z.eq_dec i' i) as [->|]; [apply le_refl|].
                   destruct (Z.ltb_spec 0 i); [|lia]. destruct V2 as (_ & _ & _ & V2); [lia|].
                   apply orb_true_iff in G as [G|G]; [|discriminate].
                   eapply le_trans; [apply V2; lia|]. now apply gtb_true.
             ++ eexists; split; [reflexivity|]. cbv beta iota. apply orb_false_iff in G as [G1 G2].
                destruct (Z.ltb_spec 0 i); [|discriminate]. specialize (V2 ltac:(lia)).
                cbv zeta in V2. destruct V2 as (W1 & W2 & W3 & W4).
                splits; auto; try (zcase; auto; fail). intros _. cbv zeta. splits; auto; try lia.
                intros i' Hi'. destruct (Z.eq_dec i' i) as [->|]; [|apply W4; lia]. now apply gtb_false.
          -- rewrite E2. cbn [bind]. eexists; split; [reflexivity|]. cbv beta iota. splits; auto.
             intros j' Hj'. destruct (Z.eq_dec j' j) as [->|].
             ++ specialize (V2 ltac:(lia)). cbv zeta in V2 |- *. destruct V2 as (W1 & W2 & W3 & W4).
                rewrite <- W2. auto.
             ++ destruct (O2 j' ltac:(lia)) as (-> & ->). apply V1. lia.
        * rewrite E. cbn [bind]. rewrite !aset_OK by (destruct T1, T2; lia). cbn [bind].
          eexists; split; [reflexivity|]. cbv beta iota. unfold tables. splits; try (apply shape_upd; auto; lia).
          -- intros j Hj. rewrite (ent_upd _ Tn N) by (auto; lia). zcase. apply T3. lia.
          -- intros t' j Ht' Hj. cbv zeta. rewrite !(ent_upd _ Tn N phi), (ent_upd _ Tn N psi) by (auto; lia).
             zcase.
             ++ subst t'. specialize (V' j Hj). cbv zeta in V'. destruct V' as (W1 & W2 & W3). splits; auto; try lia.
                intros i' Hi'. rewrite !(ent_upd _ Tn N phi) by (auto; lia). zcase. apply W3. lia.
             ++ specialize (T4 t' j ltac:(lia) Hj). cbv zeta in T4. destruct T4 as (W1 & W2 & W3). splits; auto; try lia.
                intros i' Hi'. rewrite !(ent_upd _ Tn N phi) by (auto; lia). zcase. apply W3. lia.
      + exists phi, psi. auto.
  Qed.

  Theorem viterbi_best q : Tn <= zlen q ->
    exists q', viterbi_core lg add gtb low junk junkZ N Tn p0 a logb q = OK q' /\ zlen q' = zlen q /\
      states N Tn (zn 0 q') /\ (forall t, Tn <= t -> zn 0 q' t = zn 0 q t) /\
      forall s, states N Tn s ->
        le (value add l0 la lb s (Z.to_nat (Tn - 1))) (value add l0 la lb (zn 0 q') (Z.to_nat (Tn - 1))).
  Proof.
    intros Lq. destruct tables_ok as (phi & psi & E & T1 & T2 & T3 & T4). unfold viterbi_core. rewrite E. cbn [bind]. clear E.
    rewrite (aget_OK []) by (destruct T1; lia). cbn [bind].
    set (last := zn [] phi (Tn - 1)). assert (Ll : zlen last = N) by (apply T1; lia).
    rewrite (aget_OK junk) by lia. cbn [bind]. rewrite aset_OK by lia. cbn [bind].
    match goal with |- context [for_up 1 N ?F ?S] =>
      destruct (for_up_inv (fun k '((mx, q') : T * list Z) => zlen q' = zlen q /\
        (forall t, Tn <= t -> zn 0 q' t = zn 0 q t) /\ let i := zn 0 q' (Tn - 1) in 0 <= i < k /\ mx = zn junk last i /\
        forall i', 0 <= i' < k -> le (zn junk last i') mx) 1 N F S) as ([mx q1] & E & L1 & O1 & I1 & M1 & B1) end.
    - lia.
    - split; [zl; lia|]. split; [intros t Ht; rewrite zn_upd by lia; zcase; reflexivity|]. cbv zeta. rewrite zn_upd by lia. zcase.
      splits; auto; try lia. intros i' Hi'. assert (i' = 0) as -> by lia. apply le_refl.
    - intros i [mx q1] Hi (L1 & O1 & I1 & M1 & B1). rewrite (aget_OK junk) by lia. cbn [bind].
      destruct (gtb (zn junk last i) mx) eqn:G.
      + rewrite aset_OK by lia. cbn [bind]. eexists; split; [reflexivity|]. cbv beta iota zeta. split; [zl; lia|].
        split; [intros t Ht; rewrite zn_upd by lia; zcase; now apply O1|]. rewrite zn_upd by lia. zcase.
        splits; auto; try lia. intros i' Hi'. destruct (Z.eq_dec i' i) as [->|]; [apply le_refl|].
        eapply le_trans; [apply B1; lia|]. now apply gtb_true.
      + eexists; split; [reflexivity|]. cbv beta iota zeta. splits; auto; try lia.
        intros i' Hi'. destruct (Z.eq_dec i' i) as [->|]; [now apply gtb_false|apply B1; lia].
    - rewrite E. cbn [bind]. clear E.
      match goal with |- context [for_down (Tn - 2) 0 ?F q1] =>
        destruct (for_down_inv (fun k q' => zlen q' = zlen q /\ (forall t, Tn <= t -> zn 0 q' t = zn 0 q t) /\
          zn 0 q' (Tn - 1) = zn 0 q1 (Tn - 1) /\
          (forall t, k < t < Tn -> 0 <= zn 0 q' t < N) /\
          forall t, k < t < Tn - 1 -> zn 0 q' t = ent junkZ psi (t + 1) (zn 0 q' (t + 1))) (Tn - 2) 0 F q1)
        as (q2 & E & L2 & O2 & K2 & R2 & B2) end.
      + lia.
      + splits; auto; [|intros; lia]. intros t Ht. assert (t = Tn - 1) as -> by lia. exact I1.
      + intros t q2 Ht (L2 & O2 & K2 & R2 & B2). rewrite (aget_OK 0) by lia. cbn [bind].
        pose proof (R2 (t + 1) ltac:(lia)) as R3.
        rewrite (mget_OK junkZ Tn N) by (auto; lia). cbn [bind]. rewrite aset_OK by lia. eexists; split; [reflexivity|].
        destruct (T4 (t + 1) (zn 0 q2 (t + 1)) ltac:(lia) R3) as (R4 & _).
        splits; [zl; lia| | | |].
        * intros k Hk. rewrite zn_upd by lia. zcase. now apply O2.
        * rewrite zn_upd by lia. zcase. exact K2.
        * intros k Hk. rewrite zn_upd by lia. zcase; [exact R4|]. apply R2. lia.
        * intros k Hk. rewrite !zn_upd by lia. zcase; subst; auto. apply B2. lia.
      + rewrite E. exists q2. split; [reflexivity|]. split; [exact L2|]. split; [intros t Ht; apply R2; lia|]. split; [exact O2|].
        assert (UP : forall s, states N Tn s -> forall n, Z.of_nat n < Tn -> le (value add l0 la lb s n) (ent junk phi (Z.of_nat n) (s (Z.of_nat n)))).
        { intros s Hs. induction n as [|n IH]; intros Hn.
          - cbn [value]. rewrite <- T3 by (apply Hs; lia). apply le_refl.
          - cbn [value]. set (t := Z.of_nat (S n)) in *. replace (Z.of_nat n) with (t - 1) in * by lia.
            destruct (T4 t (s t) ltac:(lia) (Hs t ltac:(lia))) as (_ & -> & M).
            apply add_mono. eapply le_trans; [apply add_mono, IH; lia|]. apply M, Hs. lia. }
        assert (EQ : forall n, Z.of_nat n < Tn -> value add l0 la lb (zn 0 q2) n = ent junk phi (Z.of_nat n) (zn 0 q2 (Z.of_nat n))).
        { induction n as [|n IH]; intros Hn.
          - cbn [value]. rewrite <- T3 by (apply R2; lia). reflexivity.
          - cbn [value]. rewrite IH by lia. set (t := Z.of_nat (S n)) in *. replace (Z.of_nat n) with (t - 1) in * by lia.
            destruct (T4 t (zn 0 q2 t) ltac:(lia) (R2 t ltac:(lia))) as (_ & -> & _).
            pose proof (B2 (t - 1) ltac:(lia)) as B. replace (t - 1 + 1) with t in B by lia. now rewrite B. }
        intros s Hs. rewrite EQ by lia. rewrite !Z2Nat.id by lia.
        eapply le_trans; [apply UP; auto; lia|]. rewrite !Z2Nat.id by lia.
        rewrite K2. change (le (zn junk last (s (Tn - 1))) (zn junk last (zn 0 q1 (Tn - 1)))).
        cbv zeta in M1. rewrite <- M1. apply B1. apply Hs. lia.
  Qed.
End Viterbi.
