(** Closed form of the loops of [cluster_melt], over any arithmetic. *)
From Coq Require Import List ZArith Lia Bool.
From Verif.Base Require Import Imp Sums Arith Loops Matrix.
From Verif.Seg Require Import MeltModel.
Import ListNotations.
Open Scope Z_scope.

Lemma upd_tab {C} (g : Z -> C) l i : 0 <= i < zlen l ->
  upd (ztab i g ++ skipn (Z.to_nat i) l) (Z.to_nat i) (g i) = ztab (i + 1) g ++ skipn (Z.to_nat (i + 1)) l.
Proof.
  intros Hi. destruct l as [|c l0]; [zl; lia|]. set (l := c :: l0) in *. apply (zn_ext c); [zl; lia|]. intros k Hk. zl.
  rewrite zn_upd by (zl; lia). rewrite !zn_app. zl. rewrite !Z.max_r by lia.
  zcase; subst; try lia; rewrite ?zn_ztab by lia; auto. rewrite !zn_skipn by lia. f_equal. lia.
Qed.
Lemma tab_get {C} (d : C) g l i : 0 <= i < zlen l -> zn d (ztab i g ++ skipn (Z.to_nat i) l) i = zn d l i.
Proof. intros Hi. rewrite zn_app. zl. rewrite Z.max_r by lia. zcase. rewrite zn_skipn by lia. f_equal; lia. Qed.
Lemma tab_all {C} (g : Z -> C) l n : zlen l = n -> ztab n g ++ skipn (Z.to_nat n) l = ztab n g.
Proof. intros H. rewrite skipn_zlen by lia. apply app_nil_r. Qed.
Lemma tab_len {C} (g : Z -> C) l i : 0 <= i <= zlen l -> zlen (ztab i g ++ skipn (Z.to_nat i) l) = zlen l.
Proof. intros. zl. lia. Qed.

(** A loop with a pure body. *)
Definition pure_up {S} (lo hi : Z) (g : Z -> S -> S) (s : S) : S :=
  fold_left (fun s i => g (lo + Z.of_nat i) s) (seq 0 (Z.to_nat (hi - lo))) s.
Lemma pure_up_empty {S} lo hi (g : Z -> S -> S) s : hi <= lo -> pure_up lo hi g s = s.
Proof. intros H. unfold pure_up. now replace (Z.to_nat (hi - lo)) with 0%nat by lia. Qed.
Lemma pure_up_snoc {S} lo hi (g : Z -> S -> S) s : lo <= hi -> pure_up lo (hi + 1) g s = g hi (pure_up lo hi g s).
Proof.
  intros H. unfold pure_up. replace (Z.to_nat (hi + 1 - lo)) with (Datatypes.S (Z.to_nat (hi - lo))) by lia.
  rewrite seq_S, fold_left_app. cbn. f_equal. lia.
Qed.
Lemma pure_up_ext {S} lo hi (f g : Z -> S -> S) s : (forall i s, lo <= i < hi -> f i s = g i s) -> pure_up lo hi f s = pure_up lo hi g s.
Proof.
  intros H. unfold pure_up. assert (G : forall l s, (forall i, In i l -> (i < Z.to_nat (hi - lo))%nat) ->
    fold_left (fun s i => f (lo + Z.of_nat i) s) l s = fold_left (fun s i => g (lo + Z.of_nat i) s) l s).
  { induction l as [|i l IH]; intros s0 B; [reflexivity|]. cbn. rewrite H by (specialize (B i ltac:(now left)); lia).
    apply IH. intros. apply B. now right. }
  apply G. intros i Hi. apply in_seq in Hi. lia.
Qed.
Lemma for_up_pure {S} lo hi body (g : Z -> S -> S) s :
  (forall i s, lo <= i < hi -> body i s = OK (g i s)) -> for_up lo hi body s = OK (pure_up lo hi g s).
Proof.
  intros H. destruct (Z.le_gt_cases lo hi) as [L|L].
  - destruct (for_up_inv (fun i v => v = pure_up lo i g s) lo hi body s) as (v & E & ->); auto.
    + now rewrite pure_up_empty by lia.
    + intros i v Hi ->. rewrite H by lia. eexists; split; [reflexivity|]. now rewrite pure_up_snoc by lia.
  - rewrite for_up_empty by lia. now rewrite pure_up_empty by lia.
Qed.

Section Melt.
  Context {T : Type} (A : arith T) (texp tlog : T -> T) (lambda : T).
  Variables (junk : T) (junkZ : Z) (rnd : Z -> T).
  Notation zero := (a_of A 0).
  Notation tsum := (fsum zero (a_add A)).

  Definition kl_step (x y : Z -> T) (i : Z) (d : T) : T :=
    let q := a_div A (a_add A (x i) (y i)) (a_of A 2) in
    if a_lt A zero q then
      let d := if a_lt A zero (x i) then a_add A d (a_mul A (x i) (tlog (a_div A (x i) q))) else d in
      if a_lt A zero (y i) then a_add A d (a_mul A (y i) (tlog (a_div A (y i) q))) else d
    else d.
  Definition kl (m : Z) (x y : Z -> T) : T := pure_up 0 m (kl_step x y) zero.

  Lemma kldist_ok a h off n x : 0 <= n -> a = ztab n x -> 0 <= off -> off + n <= zlen h ->
    kldist A tlog a h off n = OK (kl n x (fun i => zn zero h (off + i))).
  Proof.
    intros Hn -> Ho Hh. unfold kldist. apply for_up_pure. intros i s Hi.
    rewrite (aget_OK zero) by (zl; lia). cbn [bind]. rewrite (aget_OK zero) by lia. cbn [bind].
    rewrite zn_ztab by lia. unfold kl_step. destruct (a_lt A zero _); reflexivity.
  Qed.

  (** Number of frames around i not in cluster j. *)
  Definition nbr (n limit : Z) (c : Z -> Z) (i j : Z) : Z :=
    let b0 := Z.max 0 (i - limit) in let b1 := Z.min (n - 1) (i + limit) in
    pure_up b0 (b1 + 1) (fun b v => if c b =? j + 1 then v - 1 else v) (b1 - b0 + 1).
  Lemma neighbours_ok n limit c i j : 0 <= i < n -> 0 <= limit ->
    neighbours n limit (ztab n c) i j = OK (nbr n limit c i j).
  Proof.
    intros Hi Hl. unfold neighbours, nbr.
    replace (if i - limit <? 0 then 0 else i - limit) with (Z.max 0 (i - limit)) by (destruct (Z.ltb_spec (i - limit) 0); lia).
    replace (if i + limit >=? n then n - 1 else i + limit) with (Z.min (n - 1) (i + limit))
      by (rewrite Z.geb_leb; destruct (Z.leb_spec n (i + limit)); lia).
    apply for_up_pure. intros b s Hb. rewrite (aget_OK 0) by (zl; lia). cbn [bind]. now rewrite zn_ztab by lia.
  Qed.

  Section Run.
    Variables (h : list T) (m n k limit : Z).
    Hypotheses (Hm : 0 <= m) (Hn : 0 <= n) (Hk : 1 <= k) (Hl : 0 <= limit) (Hh : n * m <= zlen h).
    Definition hist (i b : Z) : T := zn zero h (i * m + b).
    Definition raw (beta : T) (cl : Z -> Z -> T) (i j : Z) : T := a_mul A (a_sub A zero beta) (kl m (cl j) (hist i)).
    Definition soft_lp (beta : T) (cl : Z -> Z -> T) (c : Z -> Z) (i j : Z) : T :=
      a_sub A (raw beta cl i j)
        (a_add A (tlog (tsum k (fun j => texp (raw beta cl i j)))) (a_mul A lambda (a_of A (nbr n limit c i j)))).
    Lemma soft_row_ok beta cl c i lr nr : 0 <= i < n -> zlen lr = k -> zlen nr = k ->
      soft_row A texp tlog lambda h m n k limit beta (tab2 k m cl) (ztab n c) i lr nr =
        OK (ztab k (soft_lp beta cl c i), ztab k (nbr n limit c i)).
    Proof.
      intros Hi L1 L2. unfold soft_row.
      match goal with |- bind (for_up 0 k ?F ?S) _ = _ =>
        destruct (for_up_inv (fun j s => s = (ztab j (raw beta cl i) ++ skipn (Z.to_nat j) lr, ztab j (nbr n limit c i) ++ skipn (Z.to_nat j) nr,
          tsum j (fun j => texp (raw beta cl i j)))) 0 k F S) as (s & E & ->) end.
      - lia.
      - now rewrite fsum_0 by lia.
      - intros j s Hj ->. unfold tab2. rewrite (aget_OK []) by (zl; lia). cbn [bind]. rewrite zn_ztab by lia.
        rewrite (kldist_ok _ _ _ _ (cl j)) by (auto; nia). cbn [bind].
        rewrite aset_OK by (rewrite tab_len; lia). cbn [bind]. rewrite neighbours_ok by lia. cbn [bind].
        rewrite aset_OK by (rewrite tab_len; lia). cbn [bind].
        eexists; split; [reflexivity|]. rewrite fsum_S by lia.
        fold (hist i). change (a_mul A (a_sub A zero beta) (kl m (cl j) (hist i))) with (raw beta cl i j).
        now rewrite !upd_tab by lia.
      - rewrite E. cbn [bind]. rewrite !tab_all by lia.
        rewrite (for_up_tab k _ (soft_lp beta cl c i)).
        + cbn [bind]. now rewrite tab_all by (zl; lia).
        + zl; lia.
        + intros j s Hj Ls V _. rewrite (aget_OK zero) by (zl; lia). cbn [bind]. rewrite (aget_OK 0) by (zl; lia). cbn [bind].
          rewrite V by lia. now rewrite !zn_ztab by lia.
    Qed.
    Lemma soft_ok beta cl c lp nc oldc : shape n k lp -> shape n k nc -> zlen oldc = n ->
      soft A texp tlog lambda h m n k limit beta (tab2 k m cl) (ztab n c) lp nc oldc =
        OK (tab2 n k (soft_lp beta cl c), tab2 n k (nbr n limit c), ztab n c).
    Proof.
      intros [L1 S1] [L2 S2] L3. unfold soft.
      match goal with |- for_up 0 n ?F ?S = _ =>
        destruct (for_up_inv (fun i s => s = (ztab i (fun i => ztab k (soft_lp beta cl c i)) ++ skipn (Z.to_nat i) lp,
          ztab i (fun i => ztab k (nbr n limit c i)) ++ skipn (Z.to_nat i) nc, ztab i c ++ skipn (Z.to_nat i) oldc)) 0 n F S) as (s & E & ->) end.
      - lia.
      - reflexivity.
      - intros i s Hi ->. rewrite (aget_OK 0) by (zl; lia). cbn [bind]. rewrite zn_ztab by lia.
        rewrite aset_OK by (rewrite tab_len; lia). cbn [bind].
        rewrite (aget_OK []) by (rewrite tab_len; lia). cbn [bind]. rewrite (aget_OK []) by (rewrite tab_len; lia). cbn [bind].
        rewrite !tab_get by lia. rewrite soft_row_ok by auto. cbn [bind].
        rewrite !aset_OK by (rewrite tab_len; lia). cbn [bind].
        eexists; split; [reflexivity|].
        rewrite (upd_tab c) by lia. rewrite (upd_tab (fun i => ztab k (soft_lp beta cl c i))) by lia.
        rewrite (upd_tab (fun i => ztab k (nbr n limit c i))) by lia. reflexivity.
      - rewrite E. now rewrite !tab_all by lia.
    Qed.

    (** First largest entry. *)
    Definition best (f : Z -> T) : Z :=
      snd (pure_up 1 k (fun j '(v, b) => if a_lt A v (f j) then (f j, j) else (v, b)) (f 0, 0)).
    Lemma best_range f : 0 <= best f < k.
    Proof.
      unfold best. set (g := fun j '(v, b) => if a_lt A v (f j) then (f j, j) else (v, b)).
      assert (G : forall d, 0 <= d -> 0 <= snd (pure_up 1 (1 + d) g (f 0, 0)) < 1 + d).
      { apply natlike_ind.
        - rewrite pure_up_empty by lia. cbn; lia.
        - intros d Hd IH. replace (1 + Z.succ d) with (1 + d + 1) by lia. rewrite pure_up_snoc by lia.
          destruct (pure_up 1 (1 + d) g (f 0, 0)) as [v b]. cbn [snd] in IH. unfold g. destruct (a_lt A v (f (1 + d))); cbn [snd]; lia. }
      specialize (G (k - 1)). replace (1 + (k - 1)) with k in G by lia. apply G. lia.
    Qed.
    Lemma assign_ok f c : zlen c = n -> assign A n k (tab2 n k f) c = OK (ztab n (fun i => best (f i) + 1)).
    Proof.
      intros L. unfold assign. rewrite (for_up_tab n _ (fun i => best (f i) + 1)).
      - now rewrite tab_all by lia.
      - lia.
      - intros i s Hi Ls _ _. unfold tab2. rewrite (aget_OK []) by (zl; lia). cbn [bind]. rewrite zn_ztab by lia.
        rewrite (aget_OK zero) by (zl; lia). cbn [bind]. rewrite zn_ztab by lia.
        rewrite aset_OK by lia. cbn [bind].
        match goal with |- bind (for_up 1 k ?F ?S) _ = _ =>
          destruct (for_up_inv (fun j '((v, c') : T * list Z) =>
            c' = upd s (Z.to_nat i) (snd (pure_up 1 j (fun j '(v, b) => if a_lt A v (f i j) then (f i j, j) else (v, b)) (f i 0, 0)) + 1) /\
            v = fst (pure_up 1 j (fun j '(v, b) => if a_lt A v (f i j) then (f i j, j) else (v, b)) (f i 0, 0))) 1 k F S) as ([v c'] & E & -> & _) end.
        + lia.
        + rewrite pure_up_empty by lia. auto.
        + intros j [v c'] Hj (-> & ->). rewrite (aget_OK zero) by (zl; lia). cbn [bind]. rewrite zn_ztab by lia.
          rewrite pure_up_snoc by lia. destruct (pure_up 1 j _ _) as [v b]. cbn [fst snd].
          destruct (a_lt A v (f i j)).
          * rewrite aset_OK by (zl; lia). cbn [bind]. eexists; split; [reflexivity|]. cbn [fst snd]. split; auto.
            apply (zn_ext 0); [zl; lia|]. intros q Hq. zl. rewrite !zn_upd by (zl; lia). zcase; auto; lia.
          * eexists; split; [reflexivity|]. cbn; auto.
        + rewrite E. cbn [bind]. symmetry. rewrite aset_OK by lia. reflexivity.
    Qed.
    Lemma unchanged_ok c c' : exists b, unchanged n (ztab n c) (ztab n c') = OK b /\ (b = true <-> forall i, 0 <= i < n -> c i = c' i).
    Proof.
      unfold unchanged. match goal with |- exists b, for_up 0 n ?F ?S = _ /\ _ =>
        destruct (for_up_inv (fun i (b : bool) => b = true <-> forall q, 0 <= q < i -> c q = c' q) 0 n F S) as (b & E & B) end.
      - lia.
      - split; auto. intros; lia.
      - intros i b Hi B. destruct b.
        + rewrite !(aget_OK 0) by (zl; lia). cbn [bind]. rewrite !zn_ztab by lia. eexists; split; [reflexivity|].
          split; intros H.
          * apply Z.eqb_eq in H. intros q Hq. destruct (Z.eq_dec q i) as [->|]; auto. apply B; auto. lia.
          * apply Z.eqb_eq. apply H. lia.
        + eexists; split; [reflexivity|]. split; [discriminate|]. intros H. apply B. intros; apply H; lia.
      - exists b. split; auto.
    Qed.
    Definition new_ref (f : Z -> Z -> T) (j b : Z) : T :=
      a_div A (tsum n (fun i => a_mul A (texp (f i j)) (hist i b))) (tsum n (fun i => texp (f i j))).
    Lemma update_refs_ok f cl : shape k m cl -> update_refs A texp h m n k (tab2 n k f) cl = OK (tab2 k m (new_ref f)).
    Proof.
      intros [L S]. unfold update_refs.
      rewrite (for_up_tab k _ (fun j => ztab m (new_ref f j))).
      - now rewrite tab_all by lia.
      - lia.
      - intros j s Hj Ls V _. rewrite (aget_OK []) by lia. cbn [bind]. rewrite V by lia. specialize (S j Hj).
        assert (Sh : shape n k (tab2 n k f)) by (apply shape_tab2; lia).
        rewrite (for_up_set m _ (fun b => tsum n (fun i => a_mul A (texp (f i j)) (hist i b)))).
        + cbn [bind]. rewrite (for_up_fsum zero (a_add A) n _ (fun i => texp (f i j))).
          * cbn [bind]. rewrite (for_up_tab m _ (new_ref f j)).
            -- cbn [bind]. rewrite !skipn_zlen by (zl; lia). now rewrite !app_nil_r.
            -- rewrite tab_len by lia. lia.
            -- intros b s' Hb Ls' V' _. rewrite tab_len in Ls' by lia. rewrite (aget_OK zero) by lia. cbn [bind]. rewrite V' by lia.
               rewrite zn_app. zl. rewrite Z.max_r by lia. zcase. now rewrite zn_ztab by lia.
          * lia.
          * intros i v Hi. rewrite (mget_OK zero n k) by auto. cbn [bind]. now rewrite ent_tab2 by lia.
        + lia.
        + intros b Hb. apply for_up_fsum; [lia|]. intros i v Hi. rewrite (mget_OK zero n k) by auto. cbn [bind].
          rewrite (aget_OK zero) by nia. cbn [bind]. now rewrite ent_tab2 by lia.
    Qed.

    (** What the annealing loop computes, from references and assignment to references and assignment. *)
    Fixpoint run (fuel : nat) (beta : T) (cl : Z -> Z -> T) (c : Z -> Z) : (Z -> Z -> T) * (Z -> Z) :=
      match fuel with
      | O => (cl, c)
      | S fuel =>
        let f := soft_lp beta cl c in
        let c' := fun i => best (f i) + 1 in
        if forallb (fun q => c (Z.of_nat q) =? c' (Z.of_nat q)) (seq 0 (Z.to_nat n)) then (cl, c')
        else run fuel beta (new_ref f) c'
      end.
    Definition melted (s : melt_state) (cl : Z -> Z -> T) (c : Z -> Z) : Prop :=
      m_cl s = tab2 k m cl /\ m_c s = ztab n c /\ shape n k (m_lp s) /\ shape n k (m_nc s) /\ zlen (m_oldc s) = n.
    Lemma anneal_ok beta : forall fuel s cl c, melted s cl c ->
      exists s', anneal A texp tlog lambda fuel h m n k limit beta s = OK s' /\ let '(cl', c') := run fuel beta cl c in melted s' cl' c'.
    Proof.
      induction fuel as [|fuel IH]; intros s cl c M; [exists s; auto|].
      destruct M as (M1 & M2 & M3 & M4 & M5). cbn [anneal run]. rewrite M1, M2. rewrite soft_ok by auto. cbn [bind].
      rewrite assign_ok by (zl; lia). cbn [bind].
      destruct (unchanged_ok c (fun i => best (soft_lp beta cl c i) + 1)) as (b & Eb & Hb). rewrite Eb. cbn [bind].
      replace (forallb _ _) with b.
      - destruct b.
        + eexists; split; [reflexivity|]. split; [|split; [|split; [|split]]]; cbn; auto; try (apply shape_tab2; lia). zl; lia.
        + rewrite update_refs_ok by (apply shape_tab2; lia). cbn [bind]. apply IH.
          split; [|split; [|split; [|split]]]; cbn; auto; try (apply shape_tab2; lia). zl; lia.
      - destruct (forallb _ _) eqn:F.
        + apply Hb. intros i Hi. rewrite forallb_forall in F. specialize (F (Z.to_nat i)).
          rewrite Z2Nat.id in F by lia. apply Z.eqb_eq. apply F. apply in_seq. lia.
        + destruct b; auto. exfalso. apply not_true_iff_false in F. apply F. apply forallb_forall. intros q Hq.
          apply in_seq in Hq. apply Z.eqb_eq. apply Hb; auto. lia.
    Qed.
    Fixpoint schedule (bs : list T) (first : bool) (cl : Z -> Z -> T) (c : Z -> Z) : (Z -> Z -> T) * (Z -> Z) :=
      match bs with
      | [] => (cl, c)
      | b :: bs => let '(cl, c) := run (if first then 20 else 5) b cl c in schedule bs false cl c
      end.

    (** Initial references. *)
    Definition ref0 (i j : Z) : T :=
      a_div A (rnd (i * m + j)) (a_sqrt A (tsum m (fun j => a_mul A (rnd (i * m + j)) (rnd (i * m + j))))).
    Lemma init_ref_ok row i : zlen row = m -> init_ref A rnd m row (i * m) = OK (ztab m (ref0 i), (i + 1) * m).
    Proof.
      intros L. unfold init_ref.
      match goal with |- bind (for_up 0 m ?F ?S) _ = _ =>
        destruct (for_up_inv (fun j s => s = (ztab j (fun j => rnd (i * m + j)) ++ skipn (Z.to_nat j) row,
          tsum j (fun j => a_mul A (rnd (i * m + j)) (rnd (i * m + j))), i * m + j)) 0 m F S) as (s & E & ->) end.
      - lia.
      - rewrite fsum_0 by lia. now rewrite Z.add_0_r.
      - intros j s Hj ->. rewrite aset_OK by (rewrite tab_len; lia). cbn [bind]. eexists; split; [reflexivity|].
        rewrite fsum_S by lia. rewrite (upd_tab (fun j => rnd (i * m + j))) by lia. now rewrite Z.add_assoc.
      - rewrite E. cbn [bind]. rewrite tab_all by lia.
        rewrite (for_up_tab m _ (ref0 i)).
        + cbn [bind]. rewrite tab_all by (zl; lia). now replace (i * m + m) with ((i + 1) * m) by lia.
        + zl; lia.
        + intros j s Hj Ls V _. rewrite (aget_OK zero) by (zl; lia). cbn [bind]. rewrite V by lia. now rewrite zn_ztab by lia.
    Qed.
    Lemma init_refs_ok cl : shape k m cl -> init_refs A rnd m k cl = OK (tab2 k m ref0).
    Proof.
      intros [L S]. unfold init_refs.
      match goal with |- bind (for_up 0 k ?F ?S) _ = _ =>
        destruct (for_up_inv (fun i s => s = (ztab i (fun i => ztab m (ref0 i)) ++ skipn (Z.to_nat i) cl, i * m)) 0 k F S) as (s & E & ->) end.
      - lia.
      - reflexivity.
      - intros i s Hi ->. rewrite (aget_OK []) by (rewrite tab_len; lia). cbn [bind]. rewrite tab_get by lia.
        rewrite init_ref_ok by (apply S; lia). cbn [bind]. rewrite aset_OK by (rewrite tab_len; lia). cbn [bind].
        eexists; split; [reflexivity|]. now rewrite (upd_tab (fun i => ztab m (ref0 i))) by lia.
      - rewrite E. cbn [bind]. now rewrite tab_all by lia.
    Qed.
  End Run.

  Lemma cluster_melt_ok h m n bs t k l c : 0 <= m -> 0 <= n -> 1 <= k -> n * m <= zlen h -> zlen c = n -> 0 <= t <= zlen bs ->
    cluster_melt A texp tlog lambda junk junkZ rnd h m n bs t k l c =
      OK (ztab n (snd (schedule h m n k (if 0 <? l then l else 20) (firstn (Z.to_nat t) bs) true (ref0 m) (fun _ => 1)))).
  Proof.
    intros Hm Hn Hk Hh Lc Ht. unfold cluster_melt. set (limit := if 0 <? l then l else 20).
    assert (Hl : 0 <= limit) by (unfold limit; destruct (Z.ltb_spec 0 l); lia).
    rewrite init_refs_ok by (auto; apply shape_repeat; lia). cbn [bind].
    rewrite (for_up_tab n _ (fun _ => 1)) by (auto; lia). cbn [bind]. rewrite tab_all by lia.
    assert (G : forall d a cl c s, 0 <= a -> a + Z.of_nat d <= zlen bs -> melted m n k s cl c ->
      exists s', for_n d a 1 (fun a s => beta <- aget bs a ;; anneal A texp tlog lambda (if a =? 0 then 20 else 5) h m n k limit beta s) s = OK s' /\
        let '(cl', c') := schedule h m n k limit (firstn d (skipn (Z.to_nat a) bs)) (a =? 0) cl c in melted m n k s' cl' c').
    { induction d as [|d IH]; intros a cl c0 s Ha Hd M; [exists s; split; auto|].
      cbn [for_n]. rewrite (aget_OK zero) by lia. cbn [bind].
      replace (skipn (Z.to_nat a) bs) with (zn zero bs a :: skipn (Z.to_nat (a + 1)) bs).
      2:{ apply (zn_ext zero); [zl; lia|]. intros q Hq. zl. rewrite zn_cons. zcase; subst; try lia; rewrite ?zn_skipn by lia; f_equal; lia. }
      cbn [firstn schedule].
      destruct (anneal_ok h m n k limit Hm Hn Hk Hl Hh (zn zero bs a) (if (a =? 0)%Z then 20%nat else 5%nat) s cl c0 M) as (s' & E & R).
      rewrite E. cbn [bind]. destruct (run _ _ _ _ _ _ _ _ _) as [cl' c'].
      destruct (IH (a + 1) cl' c' s') as (s'' & E' & R'); auto; try lia.
      exists s''. split; auto. replace (a + 1 =? 0) with false in R' by (symmetry; apply Z.eqb_neq; lia). exact R'. }
    unfold for_up. rewrite Z.sub_0_r.
    match goal with |- bind (for_n _ _ _ _ ?S) _ = _ => destruct (G (Z.to_nat t) 0 (ref0 m) (fun _ => 1) S) as (s' & E & R) end; try lia.
    - split; [|split; [|split; [|split]]]; cbn; auto; try (apply shape_repeat; lia). zl; lia.
    - rewrite E. cbn [bind]. cbn [Z.to_nat skipn] in R. change (0 =? 0) with true in R. destruct (schedule _ _ _ _ _ _ _ _ _) as [cl' c']. f_equal. apply R.
  Qed.

  (** The result is 1..k everywhere. *)
  Lemma run_range h m n k limit beta : 1 <= k -> forall fuel cl c,
    (forall i, 0 <= i < n -> 1 <= c i <= k) -> forall i, 0 <= i < n -> 1 <= snd (run h m n k limit fuel beta cl c) i <= k.
  Proof.
    intros Hk. induction fuel as [|fuel IH]; intros cl c C i Hi; [auto|]. cbn [run].
    assert (C' : forall i, 0 <= i < n -> 1 <= best k (soft_lp h m n k limit beta cl c i) + 1 <= k).
    { intros q Hq. pose proof (best_range k Hk (soft_lp h m n k limit beta cl c q)). lia. }
    destruct (forallb _ _); [exact (C' i Hi)|apply IH; auto].
  Qed.
  Lemma schedule_range h m n k limit : 1 <= k -> forall bs first cl c,
    (forall i, 0 <= i < n -> 1 <= c i <= k) -> forall i, 0 <= i < n -> 1 <= snd (schedule h m n k limit bs first cl c) i <= k.
  Proof.
    intros Hk. induction bs as [|b bs IH]; intros first cl c C i Hi; [auto|]. cbn [schedule].
    pose proof (run_range h m n k limit b Hk (if first then 20 else 5)%nat cl c C) as R.
    destruct (run _ _ _ _ _ _ _ _ _) as [cl' c']. apply IH; auto.
  Qed.
End Melt.
