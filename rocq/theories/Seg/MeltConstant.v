(** Clustering of frames with equal histograms: all get the same type.  The first pass may give the frames at the ends another
    type than the others, since fewer neighbours are counted there; afterwards all references are equal, and every
    pass at least halves what is left of them. *)
From Coq Require Import List ZArith Reals Lia Lra Bool.
From Verif.Base Require Import Imp RealOps Loops.
From Verif.Seg Require Import MeltSpec MeltProofs.
Import ListNotations.
Open Scope Z_scope.

Lemma rsum_interval n lo hi : 0 <= n -> 0 <= lo -> hi < n ->
  rsum n (fun b => if (lo <=? b) && (b <=? hi) then 1%R else 0%R) = IZR (Z.max 0 (hi - lo + 1)).
Proof.
  intros Hn H0 H1. destruct (Z.le_gt_cases lo (hi + 1)).
  - rewrite rsum_window by lia. f_equal. lia.
  - rewrite rsum_zero; [f_equal; lia|]. intros b Hb. destruct (Z.leb_spec lo b), (Z.leb_spec b hi); cbn; auto; lia.
Qed.

Section Constant.
  Variables (m n k limit : Z) (lambda : R) (h : Z -> Z -> R) (hh : Z -> R).
  Hypothesis Hn : 1 <= n.
  Hypothesis Hk : 1 <= k.
  Hypothesis Hl : 1 <= limit.
  Hypothesis Lam : (0 < lambda)%R.
  Hypothesis Same : forall i b, 0 <= i < n -> 0 <= b < m -> h i b = hh b.

  (** Frames at most [limit] from frame i. *)
  Definition low (i : Z) : Z := Z.max 0 (i - limit).
  Definition high (i : Z) : Z := Z.min (n - 1) (i + limit).
  Definition near (i : Z) : Z := high i - low i + 1.
  Lemma near_window i b : 0 <= i < n -> 0 <= b < n -> (Z.abs (b - i) <=? limit) = (low i <=? b) && (b <=? high i).
  Proof. intros Hi Hb. unfold low, high. destruct (Z.leb_spec (Z.abs (b - i)) limit), (Z.leb_spec (Z.max 0 (i - limit)) b), (Z.leb_spec b (Z.min (n - 1) (i + limit))); cbn; auto; lia. Qed.
  Lemma near_pos i : 0 <= i < n -> 1 <= near i.
  Proof. intros Hi. unfold near, low, high. lia. Qed.
  Lemma others_all c i j : 0 <= i < n -> (forall b, 0 <= b < n -> c b <> j) -> others n limit c i j = IZR (near i).
  Proof.
    intros Hi N. unfold others. rewrite (rsum_ext n _ (fun b => if (low i <=? b) && (b <=? high i) then 1%R else 0%R)).
    - rewrite rsum_interval by (unfold low, high; lia). f_equal. unfold near, low, high. lia.
    - intros b Hb. rewrite near_window by auto. destruct (Z.eqb_spec (c b) j); [now apply N in e|]. now rewrite andb_true_r.
  Qed.
  Lemma others_none c i j : (forall b, 0 <= b < n -> c b = j) -> others n limit c i j = 0%R.
  Proof. intros N. unfold others. apply rsum_zero. intros b Hb. rewrite (N b Hb), Z.eqb_refl. now rewrite andb_false_r. Qed.

  (** Divergence of the common histogram from reference j. *)
  Definition dist (cl : Z -> Z -> R) (j : Z) : R := divergence m (cl j) hh.
  Definition total (beta : R) (cl : Z -> Z -> R) : R := ln (rsum k (fun j => exp (- beta * dist cl j))).
  Lemma score_same beta cl c i j : 0 <= i < n ->
    score m n k limit lambda h beta cl c i j = (- beta * dist cl j - total beta cl - lambda * others n limit c i (j + 1))%R.
  Proof.
    intros Hi. unfold score, loglik, total, dist.
    assert (D : forall q, divergence m (cl q) (h i) = divergence m (cl q) hh) by (intros q; apply rsum_ext; intros b Hb; now rewrite Same).
    rewrite D. rewrite (rsum_ext k _ (fun q => exp (- beta * divergence m (cl q) hh))) by (intros q _; now rewrite D). reflexivity.
  Qed.

  Lemma first_best_unique f j j' : first_best k f j -> first_best k f j' -> j = j'.
  Proof.
    intros (A & B & C) (A' & B' & C'). destruct (Z.lt_trichotomy j j') as [L|[E|L]]; auto.
    - specialize (C' j ltac:(lia)). specialize (B j' A'). lra.
    - specialize (C j' ltac:(lia)). specialize (B' j A). lra.
  Qed.

  (** *** Equal references. *)
  Definition flat (cl : Z -> Z -> R) : Prop := forall j b, 0 <= j < k -> 0 <= b < m -> cl j b = hh b.
  Lemma flat_dist cl j : flat cl -> 0 <= j < k -> dist cl j = dist cl 0.
  Proof. intros F Hj. apply rsum_ext. intros b Hb. now rewrite !F by (auto; lia). Qed.
  Lemma centred_flat beta cl c cl' : centred m n k limit lambda h beta cl c cl' -> flat cl'.
  Proof.
    intros C j b Hj Hb. rewrite C by auto. set (w := fun i => exp (score m n k limit lambda h beta cl c i j)).
    rewrite (rsum_ext n _ (fun i => hh b * w i)%R) by (intros i Hi; rewrite Same by auto; unfold w; ring). rewrite rsum_scal.
    assert (0 < rsum n w)%R.
    { apply Rlt_le_trans with (w 0); [apply exp_pos|]. apply (rsum_term n w 0); [|lia]. intros; left; apply exp_pos. } field. unfold w in *. lra.
  Qed.
  Definition uniform (a : Z) (c : Z -> Z) : Prop := forall i, 0 <= i < n -> c i = a.
  Lemma uniform_stays beta cl c c' a : flat cl -> 1 <= a <= k -> uniform a c -> assigned m n k limit lambda h beta cl c c' -> uniform a c'.
  Proof.
    intros F Ha U A i Hi. specialize (A i Hi). cut (c' i - 1 = a - 1); [lia|]. eapply first_best_unique; [exact A|].
    pose proof (near_pos i Hi) as Np. apply IZR_le in Np.
    assert (S1 : others n limit c i (a - 1 + 1) = 0%R) by (apply others_none; intros b Hb; rewrite U by auto; lia).
    assert (S2 : forall q, 0 <= q < k -> q <> a - 1 -> others n limit c i (q + 1) = IZR (near i)) by (intros q Hq Nq; apply others_all; auto; intros b Hb; rewrite U by auto; lia).
    split; [lia|]. split.
    - intros q Hq. rewrite !score_same by auto. rewrite (flat_dist cl q), (flat_dist cl (a - 1)) by (auto; lia). rewrite S1.
      destruct (Z.eq_dec q (a - 1)) as [->|Nq]; [rewrite S1; lra|]. rewrite S2 by auto. nra.
    - intros q Hq. rewrite !score_same by auto. rewrite (flat_dist cl q), (flat_dist cl (a - 1)) by (auto; lia). rewrite S1, S2 by lia. nra.
  Qed.

  (** The u frames at either end have type a, the others type 1. *)
  Definition ends (u a : Z) (c : Z -> Z) : Prop := forall i, 0 <= i < n -> c i = if (i <? u) || (n - u <=? i) then a else 1.
  (** How many of the frames near frame i have type a. *)
  Definition ending (u i : Z) : Z := Z.max 0 (Z.min (high i) (u - 1) - low i + 1) + Z.max 0 (high i - Z.max (low i) (n - u) + 1).
  Lemma others_ends u a c i : 0 <= i < n -> 0 <= u <= limit -> 2 * u <= n -> a <> 1 -> ends u a c ->
    others n limit c i 1 = IZR (ending u i) /\ others n limit c i a = IZR (near i - ending u i).
  Proof.
    intros Hi Hu H2 Ha E.
    assert (T : rsum n (fun b => if (low i <=? b) && (b <=? high i) && ((b <? u) || (n - u <=? b)) then 1%R else 0%R) = IZR (ending u i)).
    { unfold ending. rewrite plus_IZR. rewrite <- (rsum_interval n (low i) (Z.min (high i) (u - 1))) by (unfold low, high; lia).
      rewrite <- (rsum_interval n (Z.max (low i) (n - u)) (high i)) by (unfold low, high; lia). rewrite <- rsum_plus. apply rsum_ext. intros b Hb.
      destruct (Z.leb_spec (low i) b), (Z.leb_spec b (high i)), (Z.ltb_spec b u), (Z.leb_spec (n - u) b), (Z.leb_spec b (Z.min (high i) (u - 1))),
        (Z.leb_spec (Z.max (low i) (n - u)) b); cbn; try lra; lia. }
    split.
    - rewrite <- T. unfold others. apply rsum_ext. intros b Hb. rewrite near_window by auto. rewrite E by auto.
      destruct ((b <? u) || (n - u <=? b)); [|now rewrite Z.eqb_refl, !andb_false_r]. destruct (Z.eqb_spec a 1); [lia|]. now rewrite !andb_true_r.
    - rewrite minus_IZR, <- T. unfold near. rewrite <- (rsum_window n (low i) (high i)) by (unfold low, high; lia). rewrite <- rsum_minus.
      unfold others. apply rsum_ext. intros b Hb. rewrite near_window by auto. rewrite E by auto.
      destruct ((b <? u) || (n - u <=? b)).
      + rewrite Z.eqb_refl, andb_false_r, andb_true_r. destruct (_ && _); lra.
      + rewrite andb_false_r. destruct (Z.eqb_spec 1 a); [lia|]. rewrite andb_true_r. destruct (_ && _); lra.
  Qed.
  Lemma ends_shrink beta cl c c' u a : 4 * limit <= n -> flat cl -> 2 <= a <= k -> 0 <= u <= limit -> ends u a c ->
    assigned m n k limit lambda h beta cl c c' -> ends (Z.max 0 (2 * u - limit - 1)) a c'.
  Proof.
    intros H4 F Ha Hu E A i Hi. specialize (A i Hi). destruct (others_ends u a c i Hi Hu ltac:(lia) ltac:(lia) E) as [O1 Oa].
    assert (Oq : forall q, 0 <= q < k -> q <> 0 -> q <> a - 1 -> others n limit c i (q + 1) = IZR (near i)).
    { intros q Hq N0 Na. apply others_all; auto. intros b Hb. rewrite E by auto. destruct (_ || _); lia. }
    pose proof (near_pos i Hi) as Np.
    assert (T0 : 0 <= ending u i <= near i) by (unfold ending, near, low, high in *; lia).
    assert (Sc : forall q, 0 <= q < k -> score m n k limit lambda h beta cl c i q = (- beta * dist cl 0 - total beta cl - lambda * others n limit c i (q + 1))%R).
    { intros q Hq. rewrite score_same by auto. now rewrite (flat_dist cl q) by auto. }
    assert (Cases : near i - ending u i < ending u i <-> (i <? Z.max 0 (2 * u - limit - 1)) || (n - Z.max 0 (2 * u - limit - 1) <=? i) = true).
    { rewrite orb_true_iff, Z.ltb_lt, Z.leb_le. unfold near, ending, low, high. lia. }
    destruct ((i <? Z.max 0 (2 * u - limit - 1)) || (n - Z.max 0 (2 * u - limit - 1) <=? i)).
    - destruct Cases as [_ Cs]. specialize (Cs eq_refl). cut (c' i - 1 = a - 1); [lia|]. eapply first_best_unique; [exact A|].
      pose proof (IZR_lt _ _ Cs) as C1. rewrite minus_IZR in C1.
      assert (C2 : (IZR (near i - ending u i) < IZR (near i))%R) by (apply IZR_lt; lia). rewrite minus_IZR in C2.
      split; [lia|]. split.
      + intros q Hq. rewrite !Sc by lia. replace (a - 1 + 1) with a by lia. rewrite Oa, minus_IZR.
        destruct (Z.eq_dec q 0) as [->|N0]; [change (0 + 1) with 1; rewrite O1; nra|]. destruct (Z.eq_dec q (a - 1)) as [->|Na].
        * replace (a - 1 + 1) with a by lia. rewrite Oa, minus_IZR. lra.
        * rewrite Oq by auto. nra.
      + intros q Hq. rewrite !Sc by lia. replace (a - 1 + 1) with a by lia. rewrite Oa, minus_IZR.
        destruct (Z.eq_dec q 0) as [->|N0]; [change (0 + 1) with 1; rewrite O1; nra|]. rewrite Oq by lia. nra.
    - assert (Cs : ending u i <= near i - ending u i) by (destruct (Z.le_gt_cases (ending u i) (near i - ending u i)) as [|C]; auto; apply Z.lt_gt, Z.gt_lt, Cases in C; discriminate).
      cut (c' i - 1 = 0); [lia|]. eapply first_best_unique; [exact A|].
      pose proof (IZR_le _ _ Cs) as C1. rewrite minus_IZR in C1. destruct T0 as [T0 T1]. apply IZR_le in T1.
      split; [lia|]. split; [|intros; lia]. intros q Hq. rewrite !Sc by lia. change (0 + 1) with 1. rewrite O1.
      destruct (Z.eq_dec q 0) as [->|N0]; [change (0 + 1) with 1; rewrite O1; lra|]. destruct (Z.eq_dec q (a - 1)) as [->|Na].
      + replace (a - 1 + 1) with a by lia. rewrite Oa, minus_IZR. nra.
      + rewrite Oq by auto. nra.
  Qed.

  (** *** Rounds with equal references. *)
  Lemma rounds_uniform beta f cl c cl' c' a : rounds m n k limit lambda h beta f cl c cl' c' -> flat cl -> 1 <= a <= k -> uniform a c ->
    flat cl' /\ uniform a c'.
  Proof.
    induction 1 as [cl c|f cl c c' A S|f cl c c' cl' cl'' c'' A N C R IH]; intros F Ha U; auto.
    - split; auto. eapply uniform_stays; eauto.
    - exfalso. apply N. intros i Hi. rewrite (U i Hi). eapply uniform_stays; eauto.
  Qed.
  Lemma rounds_ends beta f cl c cl' c' a : 4 * limit <= n -> rounds m n k limit lambda h beta f cl c cl' c' -> flat cl -> 2 <= a <= k ->
    forall u, 0 <= u <= limit -> ends u a c ->
    flat cl' /\ exists u', 0 <= u' <= limit /\ ends u' a c' /\ (u' = 0 \/ 2 ^ Z.of_nat f * (limit - u + 1) <= limit - u' + 1).
  Proof.
    intros H4. induction 1 as [cl c|f cl c c' A S|f cl c c' cl' cl'' c'' A N C R IH]; intros F Ha u Hu E.
    - split; auto. exists u. split; auto. split; auto. right. change (2 ^ Z.of_nat 0) with 1. lia.
    - split; auto. pose proof (ends_shrink _ _ _ _ _ _ H4 F Ha Hu E A) as E'.
      assert (u <= 0).
      { destruct (Z.le_gt_cases u 0); auto. exfalso. specialize (S (u - 1) ltac:(lia)). rewrite (E' (u - 1)), (E (u - 1)) in S by lia.
        destruct (Z.ltb_spec (u - 1) u); [|lia]. cbn [orb] in S.
        destruct (Z.ltb_spec (u - 1) (Z.max 0 (2 * u - limit - 1))); [lia|]. destruct (Z.leb_spec (n - Z.max 0 (2 * u - limit - 1)) (u - 1)); [lia|].
        cbn [orb] in S. lia. }
      exists (Z.max 0 (2 * u - limit - 1)). split; [lia|]. split; [exact E'|]. left. lia.
    - pose proof (ends_shrink _ _ _ _ _ _ H4 F Ha Hu E A) as E'.
      destruct (IH (centred_flat _ _ _ _ C) Ha (Z.max 0 (2 * u - limit - 1)) ltac:(lia) E') as (F' & u' & Hu' & E'' & B).
      split; auto. exists u'. split; auto. split; auto. destruct B as [B|B]; auto.
      rewrite Nat2Z.inj_succ, Z.pow_succ_r by lia. pose proof (Z.pow_pos_nonneg 2 (Z.of_nat f) ltac:(lia) ltac:(lia)).
      destruct (Z.max_spec 0 (2 * u - limit - 1)) as [[_ M]|[_ M]]; rewrite M in B.
      + right. nia.
      + left. nia.
  Qed.
  Lemma ends_0 a c : ends 0 a c -> uniform 1 c.
  Proof. intros E i Hi. rewrite E by auto. destruct (Z.ltb_spec i 0), (Z.leb_spec (n - 0) i); auto; lia. Qed.

  (** *** The first pass. *)
  (** No type is better than the first, even where fewest neighbours are counted. *)
  Definition quiet (beta : R) (cl : Z -> Z -> R) : Prop :=
    forall i j, 0 <= i < n -> 0 <= j < k -> (beta * (dist cl 0 - dist cl j) <= lambda * IZR (near i))%R.
  Lemma score_ones beta cl c i j : 0 <= i < n -> uniform 1 c -> 0 <= j < k ->
    score m n k limit lambda h beta cl c i j = (- beta * dist cl j - total beta cl - lambda * (if (j =? 0)%Z then 0 else IZR (near i)))%R.
  Proof.
    intros Hi U Hj. rewrite score_same by auto. destruct (Z.eqb_spec j 0) as [->|Nj].
    - now rewrite others_none by auto.
    - rewrite others_all; auto. intros b Hb. rewrite U by auto. lia.
  Qed.
  Lemma quiet_stays beta cl c c' : quiet beta cl -> uniform 1 c -> assigned m n k limit lambda h beta cl c c' -> uniform 1 c'.
  Proof.
    intros Q U A i Hi. specialize (A i Hi). cut (c' i - 1 = 0); [lia|]. eapply first_best_unique; [exact A|].
    split; [lia|]. split; [|intros; lia]. intros q Hq. rewrite !score_ones by (auto; lia). change (0 =? 0) with true. cbn [andb].
    specialize (Q i q Hi Hq). destruct (Z.eqb_spec q 0) as [->|Nq]; lra.
  Qed.
  Lemma stays_quiet beta cl c : uniform 1 c -> assigned m n k limit lambda h beta cl c c -> quiet beta cl.
  Proof.
    intros U A i j Hi Hj. specialize (A i Hi). rewrite (U i Hi) in A. destruct A as (_ & B & _). specialize (B j Hj).
    rewrite !score_ones in B by (auto; lia). change (1 - 1 =? 0) with true in B. change (1 - 1) with 0 in B. cbv iota in B.
    pose proof (near_pos i Hi) as Np. apply IZR_le in Np. destruct (Z.eq_dec j 0) as [Ej|Nj].
    - rewrite Ej. nra.
    - rewrite (proj2 (Z.eqb_neq j 0) Nj) in B. lra.
  Qed.
  (** Where another type is better it is the same one. *)
  Lemma first_pass beta cl c c' : 4 * limit <= n \/ n - 1 <= limit -> uniform 1 c -> assigned m n k limit lambda h beta cl c c' ->
    (exists a, 1 <= a <= k /\ uniform a c') \/ (4 * limit <= n /\ exists a u, 2 <= a <= k /\ 1 <= u <= limit /\ ends u a c').
  Proof.
    intros Hs U A.
    assert (V : forall i, 0 <= i < n -> 1 <= c' i <= k) by (intros i Hi; destruct (A i Hi) as (B & _); lia).
    (* Frames with another type agree, and frames with fewer neighbours have another type too. *)
    assert (P : forall i i', 0 <= i < n -> 0 <= i' < n -> c' i <> 1 -> near i' <= near i -> c' i' = c' i).
    { intros i i' Hi Hi' N1 Le. pose proof (V i Hi). pose proof (A i Hi) as (B1 & B2 & B3). pose proof (A i' Hi') as A'.
      cut (c' i' - 1 = c' i - 1); [lia|]. eapply first_best_unique; [exact A'|]. apply IZR_le in Le.
      assert (L0 : (- beta * dist cl 0 < - beta * dist cl (c' i - 1) - lambda * IZR (near i))%R).
      { specialize (B3 0 ltac:(lia)). rewrite !score_ones in B3 by (auto; lia). change (0 =? 0) with true in B3. destruct (Z.eqb_spec (c' i - 1) 0); [lia|]. cbv iota in B3. lra. }
      split; [lia|]. split.
      - intros q Hq. specialize (B2 q Hq). rewrite !score_ones in B2 |- * by (auto; lia). destruct (Z.eqb_spec (c' i - 1) 0); [lia|].
        destruct (Z.eqb_spec q 0) as [Eq|Nq]; [rewrite Eq; nra|lra].
      - intros q Hq. specialize (B3 q Hq). rewrite !score_ones in B3 |- * by (auto; lia). destruct (Z.eqb_spec (c' i - 1) 0); [lia|].
        destruct (Z.eqb_spec q 0) as [Eq|Nq]; [rewrite Eq; nra|lra]. }
    assert (P' : forall i i', 0 <= i < n -> 0 <= i' < n -> c' i <> 1 -> c' i' <> 1 -> c' i' = c' i).
    { intros i i' Hi Hi' N N'. destruct (Z.le_gt_cases (near i') (near i)); [now apply P|]. symmetry. apply P; auto. lia. }
    (* Is there one at the left end? *)
    destruct (Z.eq_dec (c' 0) 1) as [E0|N0].
    { left. exists 1. split; [lia|]. intros i Hi. destruct (Z.eq_dec (c' i) 1) as [|Ni]; auto. rewrite <- E0. symmetry. apply P; auto; [lia|].
      unfold near, low, high. lia. }
    destruct (Z.eq_dec (c' (Z.min (n - 1) limit)) 1) as [E1|N1].
    2:{ left. exists (c' 0). split; [apply V; lia|]. intros i Hi. transitivity (c' (Z.min (n - 1) limit)); [apply P|apply P']; auto; try lia. unfold near, low, high. lia. }
    destruct Hs as [Hs|Hs].
    2:{ exfalso. apply N0. rewrite <- E1. symmetry. apply P; auto; try lia. unfold near, low, high. lia. }
    right. split; auto. rewrite Z.min_r in E1 by lia.
    assert (X : exists u, 1 <= u <= limit /\ c' u = 1 /\ forall i, 0 <= i < u -> c' i <> 1).
    { clear - N0 E1 Hl Hk.
      assert (G : forall d, 0 <= d -> (exists u, 1 <= u <= d /\ c' u = 1 /\ forall i, 0 <= i < u -> c' i <> 1) \/ forall i, 0 <= i <= d -> c' i <> 1).
      { apply (natlike_ind (fun d => (exists u, 1 <= u <= d /\ c' u = 1 /\ forall i, 0 <= i < u -> c' i <> 1) \/ forall i, 0 <= i <= d -> c' i <> 1)).
        - right. intros i Hi. now replace i with 0 by lia.
        - intros d Hd [(u & Hu & E & N)|N]; [left; exists u; split; [lia|auto]|].
          destruct (Z.eq_dec (c' (Z.succ d)) 1) as [E|E]; [left; exists (Z.succ d); split; [lia|]; split; auto; intros i Hi; apply N; lia|].
          right. intros i Hi. destruct (Z.eq_dec i (Z.succ d)) as [->|]; auto. apply N. lia. }
      destruct (G limit ltac:(lia)) as [(u & Hu & E & N)|N]; [exists u; auto|]. exfalso. now apply (N limit ltac:(lia)). }
    destruct X as (u & Hu & Eu & Nu). exists (c' 0), u. pose proof (V 0 ltac:(lia)). split; [lia|]. split; auto.
    intros i Hi. destruct (Z.ltb_spec i u); cbn [orb].
    - apply P'; auto; try lia; apply Nu; lia.
    - destruct (Z.leb_spec (n - u) i).
      + rewrite (P (n - 1 - i) i); auto; try lia.
        * apply P'; auto; try lia. apply Nu; lia.
        * apply Nu; lia.
        * unfold near, low, high; lia.
      + destruct (Z.eq_dec (c' i) 1) as [|Ni]; auto. exfalso. assert (c' u = c' i); [|congruence]. apply P; auto; try lia. unfold near, low, high; lia.
  Qed.

  (** *** One temperature after the other. *)
  Definition settled (beta0 : R) (cl : Z -> Z -> R) (c : Z -> Z) : Prop :=
    (quiet beta0 cl /\ uniform 1 c) \/ (flat cl /\ exists a, 1 <= a <= k /\ uniform a c).
  Lemma quiet_less beta beta0 cl : (0 <= beta <= beta0)%R -> quiet beta0 cl -> quiet beta cl.
  Proof.
    intros B Q i j Hi Hj. specialize (Q i j Hi Hj). pose proof (near_pos i Hi) as Np. apply IZR_le in Np.
    destruct (Rle_lt_dec (dist cl 0 - dist cl j) 0); nra.
  Qed.
  Lemma rounds_settled beta beta0 f cl c cl' c' : (0 <= beta <= beta0)%R -> rounds m n k limit lambda h beta f cl c cl' c' -> settled beta0 cl c ->
    settled beta0 cl' c'.
  Proof.
    intros B R [(Q & U)|(F & a & Ha & U)].
    - pose proof (quiet_less _ _ _ B Q) as Q'. destruct R as [cl c|f cl c c' A S|f cl c c' cl' cl'' c'' A N C R].
      + left. auto.
      + left. split; auto. eapply quiet_stays; eauto.
      + exfalso. apply N. intros i Hi. rewrite U by auto. exact (quiet_stays _ _ _ _ Q' U A i Hi).
    - right. destruct (rounds_uniform _ _ _ _ _ _ a R F Ha U) as [F' U']. split; auto. exists a. auto.
  Qed.
  Lemma melts_settled beta0 : forall bs f cl c cl' c', Forall (fun b => 0 <= b <= beta0)%R bs -> melts m n k limit lambda h f bs cl c cl' c' ->
    settled beta0 cl c -> settled beta0 cl' c'.
  Proof.
    induction bs as [|b bs IH]; intros f cl c cl' c' Fb M S; inversion M; subst; auto. inversion Fb; subst.
    eapply IH; [|eassumption|]; auto. eapply rounds_settled; eauto.
  Qed.
  Lemma rounds_first beta f cl c cl' c' : 4 * limit <= n \/ n - 1 <= limit -> limit < 2 ^ Z.of_nat f -> uniform 1 c ->
    rounds m n k limit lambda h beta (S f) cl c cl' c' -> settled beta cl' c'.
  Proof.
    intros Hs Hf U R. inversion R as [|g ? ? ? A S|g ? ? c1 cl1 ? ? A N C R']; subst.
    - left. assert (U' : uniform 1 c') by (intros i Hi; rewrite S by auto; now apply U). split; auto.
      apply stays_quiet with c; auto. intros i Hi. rewrite <- (S i Hi). now apply A.
    - pose proof (centred_flat _ _ _ _ C) as F. right. destruct (first_pass _ _ _ _ Hs U A) as [(a & Ha & U1)|(H4 & a & u & Ha & Hu & E)].
      + destruct (rounds_uniform _ _ _ _ _ _ a R' F Ha U1). split; auto. exists a. auto.
      + destruct (rounds_ends _ _ _ _ _ _ a H4 R' F Ha u ltac:(lia) E) as (F' & u' & Hu' & E' & B). split; auto. exists 1. split; [lia|].
        assert (u' = 0) as -> by (destruct B as [|B]; auto; nia). eapply ends_0; eauto.
  Qed.
  Theorem melts_constant f b bs cl cl' c' : 4 * limit <= n \/ n - 1 <= limit -> limit < 2 ^ Z.of_nat f ->
    Forall (fun x => 0 <= x <= b)%R bs -> melts m n k limit lambda h (S f) (b :: bs) cl (fun _ => 1) cl' c' ->
    exists a, 1 <= a <= k /\ uniform a c'.
  Proof.
    intros Hs Hf Fb M. inversion M as [|? ? ? ? ? cl1 c1 ? ? R M']; subst.
    assert (S : settled b cl1 c1) by (eapply rounds_first; eauto; intros i Hi; reflexivity).
    destruct (melts_settled _ _ _ _ _ _ _ Fb M' S) as [(_ & U)|(_ & a & Ha & U)]; [exists 1|exists a]; auto. split; [lia|auto].
  Qed.
End Constant.
