(** hmm_train and viterbi_decode with a singular covariance. *)
From Coq Require Import List ZArith Reals Lia Lra Bool.
From Verif.Base Require Import Imp RealOps Sums Loops Matrix Xreal.
From Verif.Hmm Require HmmTrain.
From Verif.Hmm Require Import HmmModel HmmSpec HmmViterbi.
Import ListNotations.
Open Scope Z_scope.

(** ** Decoding when all scores are alike *)
Section Constant.
  Context {P T : Type} (lg : P -> T) (add : T -> T -> T) (gtb : T -> T -> bool).
  Variables (low junk c : T) (junkZ : Z) (dP : P).
  Variables (N Tn : Z) (p0 : list P) (a : list (list P)) (logb : list (list T)).
  Hypothesis HN : 1 <= N.
  Hypothesis HT : 1 <= Tn.
  Hypothesis Hp0 : zlen p0 = N.
  Hypothesis Ha : shape N N a.
  Hypothesis Hb : shape Tn N logb.
  Hypothesis Cb : forall t j, 0 <= t < Tn -> 0 <= j < N -> ent junk logb t j = c.
  Hypothesis C0 : forall i, 0 <= i < N -> add (lg (zn dP p0 i)) c = c.
  Hypothesis Ca : forall i j, 0 <= i < N -> 0 <= j < N -> add c (lg (ent dP a i j)) = c.
  Hypothesis Cc : add c c = c.
  Hypothesis Cg : gtb c c = false.

  Lemma constant_tables : exists phi psi, viterbi_tables lg add gtb low junk junkZ N Tn p0 a logb = OK (phi, psi) /\
    shape Tn N phi /\ shape Tn N psi /\ forall t j, 0 <= t < Tn -> 0 <= j < N -> ent junk phi t j = c /\ ent junkZ psi t j = 0.
  Proof.
    unfold viterbi_tables. cbv zeta. set (phi0 := repeat (repeat junk _) _). set (psi0 := repeat (repeat junkZ _) _).
    assert (S1 : shape Tn N phi0) by (apply shape_repeat; lia).
    assert (S2 : shape Tn N psi0) by (apply shape_repeat; lia).
    rewrite (aget_OK [] phi0), (aget_OK [] psi0) by (destruct S1, S2; lia). cbn [bind].
    match goal with |- context [for_up 0 N ?F ?S] =>
      destruct (for_up_inv (fun i '((r, s) : list T * list Z) => zlen r = N /\ zlen s = N /\
        forall j, 0 <= j < i -> zn junk r j = c /\ zn junkZ s j = 0) 0 N F S) as ([r s] & E & Lr & Ls & V) end.
    - lia.
    - splits; [apply S1; lia|apply S2; lia|intros; lia].
    - intros i [r s] Hi (Lr & Ls & V). rewrite (aget_OK dP) by lia. cbn [bind].
      rewrite (mget_OK junk Tn N) by (auto; lia). cbn [bind]. rewrite !aset_OK by lia. cbn [bind].
      eexists; split; [reflexivity|]. cbv beta iota. splits; try (zl; lia).
      intros j Hj. rewrite !zn_upd by lia. zcase; [subst; rewrite Cb by lia; split; auto|]. apply V. lia.
    - rewrite E. cbn [bind]. clear E. rewrite !aset_OK by (destruct S1, S2; lia). cbn [bind].
      match goal with |- context [for_up 1 Tn ?F ?S] =>
        destruct (for_up_inv (fun t '((phi, psi) : list (list T) * list (list Z)) => shape Tn N phi /\ shape Tn N psi /\
          forall t' j, 0 <= t' < t -> 0 <= j < N -> ent junk phi t' j = c /\ ent junkZ psi t' j = 0) 1 Tn F S)
          as ([phi psi] & E & T1 & T2 & T3) end.
      + lia.
      + splits; try (apply shape_upd; auto; lia).
        intros t' j Ht' Hj. rewrite !(ent_upd _ Tn N) by (auto; lia). zcase. apply V. lia.
      + intros t [phi psi] Ht (T1 & T2 & T3).
        rewrite !(aget_OK []) by (destruct T1, T2; lia). cbn [bind].
        set (prev := zn [] phi (t - 1)). assert (Lp : zlen prev = N) by (apply T1; lia).
        assert (Cp : forall i, 0 <= i < N -> zn junk prev i = c) by (intros i Hi; apply (T3 (t - 1) i); lia).
        match goal with |- context [for_up 0 N ?F ?S] =>
          destruct (for_up_inv (fun k '((r, s) : list T * list Z) => zlen r = N /\ zlen s = N /\
            forall j, 0 <= j < k -> zn junk r j = c /\ zn junkZ s j = 0) 0 N F S)
            as ([r' s'] & E & Lr' & Ls' & V') end.
        * lia.
        * splits; [apply T1; lia|apply T2; lia|intros; lia].
        * intros j [r1 s1] Hj (Lr1 & Ls1 & V1). rewrite aset_OK by lia. cbn [bind].
          match goal with |- context [for_up 0 N ?F ?S] =>
            destruct (for_up_inv (fun k '((mx, have, r, s) : T * bool * list T * list Z) => zlen r = N /\ zlen s = N /\
              (forall j', 0 <= j' < j -> zn junk r j' = c /\ zn junkZ s j' = 0) /\
              have = (0 <? k) /\ zn junkZ s j = 0 /\ (0 < k -> mx = c /\ zn junk r j = c)) 0 N F S)
              as ([[[mx have] r2] s2] & E2 & Lr2 & Ls2 & O2 & _ & V2 & V3) end.
          -- lia.
          -- splits; auto; try (zl; lia); try reflexivity; try (intros; lia).
             ++ intros j' Hj'. rewrite zn_upd by lia. zcase. now apply V1.
             ++ rewrite zn_upd by lia. zcase. reflexivity.
          -- intros i [[[mx have] r2] s2] Hi (Lr2 & Ls2 & O2 & -> & V2 & V3).
             rewrite (aget_OK junk) by lia. cbn [bind]. rewrite (mget_OK dP N N) by (auto; lia). cbn [bind].
             rewrite Cp, Ca by lia.
             destruct (Z.ltb_spec 0 i) as [Hp|Hp].
             ++ destruct V3 as (-> & V3); auto. rewrite Cg. cbn [orb negb].
                eexists; split; [reflexivity|]. cbv beta iota. splits; auto; try (zcase; auto; fail).
             ++ assert (i = 0) as -> by lia. cbn [negb]. rewrite orb_true_r.
                rewrite (mget_OK junk Tn N) by (auto; lia). cbn [bind]. rewrite !aset_OK by lia. cbn [bind].
                eexists; split; [reflexivity|]. cbv beta iota. rewrite Cb by lia. splits; try (zl; lia).
                ** intros j' Hj'. rewrite !zn_upd by lia. zcase. now apply O2.
                ** rewrite zn_upd by lia. zcase. reflexivity.
                ** intros _. split; auto. rewrite zn_upd by lia. zcase. auto.
          -- rewrite E2. cbn [bind]. eexists; split; [reflexivity|]. cbv beta iota. splits; auto.
             intros j' Hj'. destruct (Z.eq_dec j' j) as [->|]; [|apply O2; lia]. split; auto. apply V3. lia.
        * rewrite E. cbn [bind]. rewrite !aset_OK by (destruct T1, T2; lia). cbn [bind].
          eexists; split; [reflexivity|]. cbv beta iota. splits; try (apply shape_upd; auto; lia).
          intros t' j Ht' Hj. rewrite !(ent_upd _ Tn N) by (auto; lia). zcase; [now apply V'|]. apply T3; lia.
      + exists phi, psi. auto.
  Qed.

  Theorem constant_path q : Tn <= zlen q ->
    exists q', viterbi_core lg add gtb low junk junkZ N Tn p0 a logb q = OK q' /\ zlen q' = zlen q /\
      (forall t, 0 <= t < Tn -> zn 0 q' t = 0) /\ (forall t, Tn <= t -> zn 0 q' t = zn 0 q t).
  Proof.
    intros Lq. destruct constant_tables as (phi & psi & E & T1 & T2 & T3). unfold viterbi_core. rewrite E. cbn [bind]. clear E.
    rewrite (aget_OK []) by (destruct T1; lia). cbn [bind].
    set (last := zn [] phi (Tn - 1)). assert (Ll : zlen last = N) by (apply T1; lia).
    assert (Cl : forall i, 0 <= i < N -> zn junk last i = c) by (intros i Hi; apply (T3 (Tn - 1) i); lia).
    rewrite (aget_OK junk) by lia. cbn [bind]. rewrite Cl by lia. rewrite aset_OK by lia. cbn [bind].
    set (q0 := upd q _ 0).
    match goal with |- context [for_up 1 N ?F ?S] =>
      destruct (for_up_inv (fun k '((mx, q') : T * list Z) => mx = c /\ q' = q0) 1 N F S) as ([mx q1] & E & -> & ->) end.
    - lia.
    - cbv beta iota. auto.
    - intros i [mx q1] Hi (-> & ->). rewrite (aget_OK junk) by lia. cbn [bind]. rewrite Cl, Cg by lia. eexists; split; [reflexivity|]. cbv beta iota. auto.
    - rewrite E. cbn [bind]. clear E.
      match goal with |- context [for_down (Tn - 2) 0 ?F q0] =>
        destruct (for_down_inv (fun k q' => zlen q' = zlen q /\ (forall t, Tn <= t -> zn 0 q' t = zn 0 q t) /\
          (forall t, k < t < Tn -> zn 0 q' t = 0)) (Tn - 2) 0 F q0) as (q2 & E & L2 & O2 & R2) end.
      + lia.
      + unfold q0. splits; [zl; lia| |]; intros t Ht; rewrite zn_upd by lia; zcase; reflexivity.
      + intros t q2 Ht (L2 & O2 & R2). rewrite (aget_OK 0) by lia. cbn [bind]. rewrite R2 by lia.
        rewrite (mget_OK junkZ Tn N) by (auto; lia). cbn [bind]. rewrite (proj2 (T3 (t + 1) 0 ltac:(lia) ltac:(lia))).
        rewrite aset_OK by lia. eexists; split; [reflexivity|]. splits; [zl; lia| |].
        * intros k Hk. rewrite zn_upd by lia. zcase. now apply O2.
        * intros k Hk. rewrite zn_upd by lia. zcase; auto. apply R2. lia.
      + rewrite E. exists q2. splits; auto. intros t Ht. apply R2. lia.
  Qed.
End Constant.

(** ** The forward pass of hmm.c:353-390 among infinities and NaN *)
(** log() of hmm.c:367, 388: of zero it is minus infinity. *)
Definition flog_x (v : xr) : xr := match v with Fin r => HmmTrain.flog r | PInf => PInf | _ => NaN end.
(** alpha[t] and *loglik after observation t, from those before it: the same statements as [forward], HmmModel.v, for
    one t.  [first] computes alpha[0][i] before scaling, [next] alpha[t][j]; sums start from zero. *)
Definition xsum (l : list xr) : xr := fold_left xadd l (Fin 0).
Definition scale_row (row : list xr) : list xr * xr :=
  let c := xdiv (Fin 1) (xsum row) in (map (fun v => xmul v c) row, c).
Definition forward_first (p0 : list R) (b0 : list xr) : list xr * xr :=
  let (alpha, c) := scale_row (map (fun '(p, v) => xmul (Fin p) v) (combine p0 b0)) in (alpha, xneg (flog_x c)).
Definition forward_next (a : list (list R)) (alpha : list xr) (ll : xr) (bt : list xr) : list xr * xr :=
  let N := zlen alpha in
  let (alpha', c) := scale_row (map (fun '(j, v) =>
      xmul (xsum (map (fun '(x, row) => xmul x (Fin (zn 0%R row j))) (combine alpha a))) v) (combine (map Z.of_nat (seq 0 (Z.to_nat N))) bt)) in
  (alpha', xsub ll (flog_x c)).
Definition forward_ll (p0 : list R) (a : list (list R)) (b0 : list xr) (bs : list (list xr)) : xr :=
  snd (fold_left (fun '(alpha, ll) bt => forward_next a alpha ll bt) bs (forward_first p0 b0)).

Lemma xadd_nan x : xadd x NaN = NaN.
Proof. destruct x; reflexivity. Qed.
Lemma xmul_nan x : xmul x NaN = NaN.
Proof. destruct x; reflexivity. Qed.
Lemma fold_nan l : fold_left xadd l NaN = NaN.
Proof. induction l; cbn [fold_left]; auto. Qed.
Lemma xsum_nan l : l <> [] -> Forall (eq NaN) l -> xsum l = NaN.
Proof. intros N F. destruct F as [|x l <- F]; [contradiction|]. unfold xsum. cbn [fold_left]. rewrite xadd_nan. apply fold_nan. Qed.
Lemma scale_nan row : row <> [] -> Forall (eq NaN) row -> exists row', scale_row row = (row', NaN) /\ Forall (eq NaN) row' /\ length row' = length row.
Proof.
  intros N F. unfold scale_row. rewrite xsum_nan by auto. eexists. split; [reflexivity|]. split; [|apply map_length].
  apply Forall_forall. intros v Hv. apply in_map_iff in Hv. destruct Hv as (u & <- & Hu). now rewrite xmul_nan.
Qed.
(** Every sum of products of positive numbers with plus infinity is plus infinity; scaled, NaN. *)
Lemma xsum_inf l : l <> [] -> Forall (eq PInf) l -> xsum l = PInf.
Proof.
  intros N F. destruct F as [|x l <- F]; [contradiction|]. unfold xsum. cbn [fold_left xadd]. clear N.
  induction F as [|y l <- F IH]; cbn [fold_left xadd]; auto.
Qed.
Lemma sign_0 : xsign 0 = NaN.
Proof. unfold xsign. destruct (Rltb 0 0) eqn:E; auto. apply Rltb_true in E. lra. Qed.

(** With every density plus infinity the likelihood is NaN from the second observation. *)
Theorem forward_singular (p0 : list R) (a : list (list R)) (N : Z) (bs : list (list xr)) : 1 <= N -> zlen p0 = N -> zlen a = N ->
  Forall (fun p => 0 < p)%R p0 -> bs <> [] -> Forall (fun b => b = repeat PInf (Z.to_nat N)) bs ->
  forward_ll p0 a (repeat PInf (Z.to_nat N)) bs = NaN.
Proof.
  intros HN Lp La P0 Nb Fb. unfold forward_ll, forward_first.
  assert (R0 : Forall (eq PInf) (map (fun '(p, v) => xmul (Fin p) v) (combine p0 (repeat PInf (Z.to_nat N))))).
  { apply Forall_forall. intros v Hv. apply in_map_iff in Hv. destruct Hv as ([p w] & <- & Hu).
    pose proof (in_combine_l _ _ _ _ Hu) as H1. apply in_combine_r, repeat_spec in Hu. subst w.
    rewrite Forall_forall in P0. specialize (P0 p H1). unfold xmul, xsign. now rewrite (proj2 (Rltb_true 0 p) P0). }
  assert (L0 : length (map (fun '(p, v) => xmul (Fin p) v) (combine p0 (repeat PInf (Z.to_nat N)))) = Z.to_nat N).
  { rewrite map_length, combine_length, repeat_length. unfold zlen in Lp. lia. }
  set (r0 := map _ _) in *. assert (N0 : r0 <> []) by (intros C; rewrite C in L0; cbn in L0; lia).
  unfold scale_row. rewrite xsum_inf by auto. cbn [xdiv].
  set (al := map _ r0). assert (Al : Forall (eq NaN) al).
  { unfold al. apply Forall_forall. intros v Hv. apply in_map_iff in Hv. destruct Hv as (u & <- & Hu).
    rewrite Forall_forall in R0. rewrite <- (R0 u Hu). cbn [xmul]. now rewrite sign_0. }
  assert (LA : length al = Z.to_nat N) by (unfold al; now rewrite map_length).
  generalize (xneg (flog_x (Fin 0))) as ll. clearbody al.
  assert (Step : forall al ll b, Forall (eq NaN) al -> length al = Z.to_nat N -> b = repeat PInf (Z.to_nat N) ->
    exists al', forward_next a al ll b = (al', NaN) /\ Forall (eq NaN) al' /\ length al' = Z.to_nat N).
  { intros al1 ll b A1 L1 ->. unfold forward_next.
    set (row := map _ _). assert (FR : Forall (eq NaN) row).
    { unfold row. apply Forall_forall. intros v Hv. apply in_map_iff in Hv. destruct Hv as ([j w] & <- & Hu).
      rewrite xsum_nan; [reflexivity| |].
      - intros C. apply (f_equal (@length xr)) in C. rewrite map_length, combine_length in C. unfold zlen in La. cbn in C. lia.
      - apply Forall_forall. intros y Hy. apply in_map_iff in Hy. destruct Hy as ([z rw] & <- & Hz). apply in_combine_l in Hz.
        rewrite Forall_forall in A1. now rewrite <- (A1 z Hz). }
    assert (LR : length row = Z.to_nat N).
    { unfold row. rewrite map_length, combine_length, repeat_length, map_length, seq_length. unfold zlen. rewrite L1. lia. }
    destruct (scale_nan row) as (row' & E & F' & L'); auto.
    { intros C. rewrite C in LR. cbn in LR. lia. }
    rewrite E. exists row'. split; [|split; [auto|congruence]]. cbn [flog_x]. unfold xsub. cbn [xneg]. now rewrite xadd_nan. }
  destruct Fb as [|b bs Eb Fb]; [contradiction|]. intros ll. cbn [fold_left]. clear Nb.
  destruct (Step al ll b Al LA Eb) as (al' & E & Al' & LA'). rewrite E. clear E.
  revert al' Al' LA'. induction Fb as [|b' bs Eb' Fb IH]; intros al' Al' LA'; cbn [fold_left]; auto.
  destruct (Step al' NaN b' Al' LA' Eb') as (al2 & E & A2 & L2). rewrite E. now apply IH.
Qed.
