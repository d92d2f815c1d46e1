From Coq Require Import List ZArith QArith Lia Bool.
From Verif.Base Require Import Imp.
From Verif.Rate Require Import Df2tSpec Df2tProofs DecimatorModel DecimatorSpec.
Import ListNotations.
Open Scope Z_scope.

Section Proofs.
  Context {T : Type} (zero : T) (add sub mul : T -> T -> T) (lit : Q -> T).
  Context {F : Type} (fz : F) (up : F -> T) (down : T -> F).
  Notation Zn := (zn zero).
  Notation grun := (grun zero add sub mul).
  Notation gstep := (gstep zero add sub mul).
  Notation alias := (decimator_alias add sub mul up).
  Notation process := (decimator_process add sub mul up down).

  Definition ol (o : delay7 (T:=T)) : list T := [o1 o; o2 o; o3 o; o4 o; o5 o; o6 o; o7 o].
  Lemma ol_inj o o' : ol o = ol o' -> o = o'.
  Proof. destruct o, o'; unfold ol; cbn. intros H; injection H as -> -> -> -> -> -> ->. reflexivity. Qed.

  (** Coefficients as pairs. *)
  Notation lead := (lead lit).
  Notation pairs := (pairs lit).

  Definition slice {A} (m : list A) (off n : Z) : list A := firstn (Z.to_nat n) (skipn (Z.to_nat off) m).

  Lemma zlen_slice {A} (m : list A) off n : 0 <= off -> 0 <= n -> off + n <= zlen m -> zlen (slice m off n) = n.
  Proof. intros. unfold slice. zl. lia. Qed.
  Lemma zn_slice {A} (z : A) m off n i : 0 <= off -> 0 <= i < n -> zn z (slice m off n) i = zn z m (off + i).
  Proof. intros. unfold slice. rewrite zn_firstn by lia. rewrite zn_skipn by lia. f_equal; lia. Qed.
  Lemma firstn_snoc {A} (z : A) l i : 0 <= i < zlen l ->
    firstn (Z.to_nat (i + 1)) l = firstn (Z.to_nat i) l ++ [zn z l i].
  Proof.
    intros H. apply (zn_ext z); [zl; lia|]. intros k Hk. zl. rewrite zn_firstn by lia.
    rewrite zn_app. zl. zcase; [now rewrite zn_firstn by lia|].
    replace (k - Z.min (Z.of_nat (Z.to_nat i)) (zlen l)) with 0 by lia. cbn. f_equal; lia.
  Qed.

  Section Alias.
    Variables (b0 b1 b2 b3 b4 b5 b6 b7 a0 a1 a2 a3 a4 a5 a6 a7 : T).
    Let cs := [(b1, a1); (b2, a2); (b3, a3); (b4, a4); (b5, a5); (b6, a6); (b7, a7)].

    Lemma alias_spec d mem src n :
      d_b d = [b0; b1; b2; b3; b4; b5; b6; b7] -> d_a d = [a0; a1; a2; a3; a4; a5; a6; a7] ->
      inside mem src n -> n <= zlen (d_buf d) ->
      exists d', alias d mem src n = OK d' /\
        let '(o, ys) := grun b0 cs (ol (d_o d)) (map up (slice mem src n)) in
        ol (d_o d') = o /\ d_in d' = d_in d /\ d_out d' = d_out d /\ d_factor d' = d_factor d /\
        d_a d' = d_a d /\ d_b d' = d_b d /\ zlen (d_buf d') = zlen (d_buf d) /\
        forall k, 0 <= k < n -> Zn (d_buf d') k = Zn ys k.
    Proof.
      intros Hb Ha (H0 & H1 & H2) Hbuf. unfold decimator_alias. rewrite Hb, Ha.
      repeat match goal with |- context [aget (?x :: ?l) ?i] =>
        let r := eval cbv in (aget (x :: l) i) in
        match r with OK ?v => change (aget (x :: l) i) with (@OK T v) end end.
      cbn [bind]. set (xs := map up (slice mem src n)).
      assert (Lx : zlen xs = n) by (unfold xs; rewrite zlen_map; apply zlen_slice; lia).
      match goal with |- context [for_up 0 n ?Fn ?S] =>
        destruct (for_up_inv (fun i s => let '(_, _, o, buf) := s in
          let '(o', ys) := grun b0 cs (ol (d_o d)) (firstn (Z.to_nat i) xs) in
          ol o = o' /\ zlen buf = zlen (d_buf d) /\ forall k, 0 <= k < i -> Zn buf k = Zn ys k)
          0 n Fn S) as ([[[inp outp] o] buf] & E & HI); [lia| | |] end.
      - cbn. splits; auto. intros; lia.
      - intros i [[[inp outp] o] buf] Hi HI.
        rewrite (firstn_snoc zero) by lia. rewrite grun_app.
        destruct (grun b0 cs (ol (d_o d)) (firstn (Z.to_nat i) xs)) as [o' ys] eqn:G.
        destruct HI as (Ho & Lb & HV).
        assert (Ly : zlen ys = i).
        { pose proof (grun_len zero add sub mul b0 cs (ol (d_o d)) (firstn (Z.to_nat i) xs)) as L.
          rewrite G in L. cbn [snd] in L. zl. lia. }
        assert (EX : aget mem (src + i) = OK (zn fz mem (src + i))) by (apply aget_OK; lia).
        assert (EU : up (zn fz mem (src + i)) = Zn xs i).
        { unfold xs. rewrite (zn_map up fz) by (rewrite zlen_slice; lia). now rewrite zn_slice by lia. }
        rewrite EX. cbn [bind]. rewrite EU. set (x := Zn xs i).
        rewrite aset_OK by lia. cbn [bind]. eexists; split; [reflexivity|].
        cbn [Df2tProofs.grun]. rewrite <- Ho. unfold cs, Df2tProofs.gstep, ol. cbn [delays hd o1 o2 o3 o4 o5 o6 o7].
        splits; auto; [zl; lia|]. intros k Hk. rewrite zn_upd by lia. rewrite zn_app.
        destruct (Z.eqb_spec k i) as [->|]; zcase; [|apply HV; lia].
        rewrite Ly, Z.sub_diag. reflexivity.
      - rewrite E. cbn [bind]. eexists; split; [reflexivity|]. cbn.
        rewrite firstn_all2 in HI by (unfold zlen in Lx; lia).
        destruct (grun b0 cs (ol (d_o d)) xs) as [o' ys]. destruct HI as (Ho & Lb & HV). auto 10.
    Qed.
  End Alias.

  (** Well-formed decimator for factor [f] with delay values [o]. *)
  Definition dec_ok (d : decimator T) (f n : Z) (o : list T) : Prop :=
    let '(b, a) := coefficients f in
    d_b d = map lit b /\ d_a d = map lit a /\ d_in d = n /\ d_out d = Z.quot n f /\ d_factor d = f /\
    zlen (d_buf d) = n /\ ol (d_o d) = o.

  Definition resp_run (f : Z) := let '(b, a) := coefficients f in grun (lead b) (pairs b a).

  Lemma new_ok junk n f : f <> 0 -> 0 <= n ->
    exists d, decimator_new zero lit junk n f = OK d /\ dec_ok d f n (repeat zero 7).
  Proof.
    intros Hf Hn. unfold decimator_new, dec_ok. zcase; try congruence.
    destruct (coefficients f) as [b a]. eexists; split; [reflexivity|].
    cbn. splits; auto. zl. lia.
  Qed.

  Lemma reset_ok d f n o : dec_ok d f n o -> dec_ok (decimator_reset zero d) f n (repeat zero 7).
  Proof.
    unfold dec_ok. destruct (coefficients f) as [b a]. intros (A & B & C & D & E & G & H).
    cbn. auto 10.
  Qed.

  Lemma process_spec d f n o mem src dst :
    dec_ok d f n o -> 2 <= f -> inside mem src n -> inside mem dst (n / f) ->
    exists d' mem', process d mem src dst = OK (d', mem') /\
      let '(o', ys) := resp_run f o (map up (slice mem src n)) in
      dec_ok d' f n o' /\
      stored fz mem dst (ztab (n / f) (fun j => down (Zn ys (f * j)))) mem'.
  Proof.
    unfold dec_ok, resp_run. intros HD Hf Hs Hd.
    assert (Hn : 0 <= n) by (destruct Hs; lia).
    assert (HC : exists b0 b1 b2 b3 b4 b5 b6 b7 a0 a1 a2 a3 a4 a5 a6 a7,
      coefficients f = ([b0; b1; b2; b3; b4; b5; b6; b7], [a0; a1; a2; a3; a4; a5; a6; a7])).
    { unfold coefficients. zcase; repeat eexists. }
    destruct HC as (b0 & b1 & b2 & b3 & b4 & b5 & b6 & b7 & a0 & a1 & a2 & a3 & a4 & a5 & a6 & a7 & HC).
    rewrite HC in *. destruct HD as (Hb & Ha & Hi & Ho & Hfa & Hl & Hol). cbn [map] in Hb, Ha.
    unfold decimator_process. rewrite Hfa, Hi. destruct (Z.eqb_spec f 1); [lia|].
    destruct (alias_spec _ _ _ _ _ _ _ _ _ _ _ _ _ _ _ _ d mem src n Hb Ha Hs ltac:(lia)) as (d1 & E1 & R).
    rewrite E1. cbn [bind]. unfold lead, pairs. cbn [hd tl map combine].
    rewrite <- Hol.
    destruct (grun _ _ (ol (d_o d)) (map up (slice mem src n))) as [o' ys].
    destruct R as (R1 & R2 & R3 & R4 & R5 & R6 & R7 & R8).
    rewrite R3, R4, Hfa, Ho. rewrite Z.quot_div_nonneg by lia.
    destruct Hd as (D0 & D1 & D2).
    assert (HQ : forall i, 0 <= i < n / f -> 0 <= f * i < n).
    { intros i Hi'. pose proof (Z.mul_div_le n f). nia. }
    match goal with |- context [for_up 0 (n / f) ?Fn ?S] =>
      destruct (for_up_inv (fun i s => fst s = i /\
        zlen (snd s) = zlen mem /\ forall k, 0 <= k < zlen mem ->
          zn fz (snd s) k = if (dst <=? k) && (k <? dst + i) then down (Zn ys (f * (k - dst))) else zn fz mem k)
        0 (n / f) Fn S) as ([idx mem'] & E & HI1 & HI2 & HI3); [lia| | |] end.
    - cbn [fst snd]. splits; auto. intros k Hk. zcase; auto.
    - intros i [idx m'] Hi' (I1 & I2 & I3). cbn [fst snd] in *. subst idx.
      specialize (HQ i Hi'). rewrite (aget_OK zero) by lia. cbn [bind].
      rewrite aset_OK by lia. cbn [bind]. eexists; split; [reflexivity|]. cbn [fst snd].
      splits; auto; [zl; lia|]. intros k Hk. rewrite zn_upd by lia. rewrite I3 by lia. rewrite R8 by lia.
      zcase; auto. do 2 f_equal. subst k. f_equal. lia.
    - rewrite E. cbn [bind]. exists d1, mem'. split; [reflexivity|]. split.
      + rewrite R5, R6. splits; auto; try congruence; try lia.
        rewrite R3, Ho. apply Z.quot_div_nonneg; lia.
      + cbn [fst snd] in *. split; auto. intros i Hi'. zl. rewrite Z.max_r by lia. rewrite HI3 by lia.
        zcase; auto. now rewrite zn_ztab by lia.
  Qed.

  (** Running blocks. *)
  Fixpoint expected (f n : Z) (o : list T) (calls : list (list F * list F)) : list (list F) :=
    match calls with
    | [] => []
    | (blk, out) :: rest =>
        let '(o', ys) := resp_run f o (map up blk) in
        (ztab (n / f) (fun j => down (Zn ys (f * j))) ++ skipn (Z.to_nat (n / f)) out)
          :: expected f n o' rest
    end.

  Lemma dec_run_spec f n : 2 <= f -> 0 <= n -> forall calls d o,
    blocks n (n / f) calls -> dec_ok d f n o ->
    exists d' outs, decimator_run add sub mul up down d calls = OK (d', outs) /\
      beyond_kept (n / f) calls outs /\ outs = expected f n o calls /\
      let '(o', ys) := resp_run f o (map up (fed calls)) in
      dec_ok d' f n o' /\
      ((f | n) -> got (n / f) outs = map down (ztab (zlen ys / f) (fun j => Zn ys (f * j)))).
  Proof.
    intros Hf Hn. induction calls as [|[blk out] calls IH]; intros d o HB HD.
    - exists d, []. split; [reflexivity|]. split; [constructor|]. split; [reflexivity|]. unfold resp_run.
      destruct (coefficients f) as [b a] eqn:EC. cbn [fed map concat Df2tProofs.grun].
      split; [unfold dec_ok in *; rewrite EC in *; auto|]. intros _. reflexivity.
    - apply Forall_cons_iff in HB as [[L1 L2] HB']. cbn [fst snd] in L1, L2.
      assert (Hq : 0 <= n / f) by (apply Z.div_pos; lia).
      destruct (process_spec d f n o (blk ++ out) 0 (zlen blk) HD Hf) as (d1 & mem' & E1 & R).
      { split; [lia|]. zl. pose proof (zlen_nonneg out). lia. }
      { split; [lia|]. zl. lia. }
      cbn [decimator_run]. unfold decimator_block. rewrite E1. cbn [bind].
      replace (slice (blk ++ out) 0 n) with blk in R.
      2: { unfold slice. cbn [Z.to_nat skipn]. rewrite firstn_app.
           replace (Z.to_nat n) with (length blk) by (unfold zlen in L1; lia).
           rewrite firstn_all, Nat.sub_diag. cbn. now rewrite app_nil_r. }
      unfold resp_run in *. destruct (coefficients f) as [b a] eqn:EC.
      destruct (grun (lead b) (pairs b a) o (map up blk)) as [o1 ys1] eqn:G1.
      destruct R as (HD1 & SL & SV). 
      destruct (IH d1 o1 HB' HD1) as (d2 & outs & E2 & K2 & X2 & R2).
      rewrite E2. cbn [bind]. eexists _, _. split; [reflexivity|].
      assert (Ly1 : zlen ys1 = n).
      { pose proof (grun_len zero add sub mul (lead b) (pairs b a) o (map up blk)) as L.
        rewrite G1 in L. cbn [snd] in L. rewrite L. zl. lia. }
      unfold fed. cbn [map fst concat]. rewrite map_app, grun_app, G1.
      fold (fed calls). destruct (grun (lead b) (pairs b a) o1 (map up (fed calls))) as [o2 ys2].
      destruct R2 as [HD2 HG]. split; [|split; [|split; auto]].
      + constructor; auto. split; [cbn [snd]; zl; lia|].
        apply (zn_ext fz); [zl; cbn [snd]; lia|]. intros i Hi. cbn [snd]. zl.
        rewrite !zn_skipn by lia. rewrite SV by (zl; lia). rewrite zn_app. zl.
        rewrite Z.max_r by lia. zcase. f_equal. unfold zlen. lia.
      + cbn [expected]. unfold resp_run. rewrite EC, G1, <- X2. f_equal.
        apply (zn_ext fz); [zl; lia|]. intros i Hi. zl. rewrite zn_skipn by lia.
        rewrite SV by (zl; lia). rewrite !zn_app. zl. rewrite Z.max_r by lia. fold (zlen blk).
        zcase; [f_equal; lia|]. rewrite zn_skipn by lia. f_equal; lia.
      + intros HV. destruct HV as [m HV].
        assert (Hm : n / f = m) by (rewrite HV; apply Z.div_mul; lia).
        unfold got. cbn [map concat]. fold (got (n / f) outs).
        rewrite HG by (exists m; exact HV).
        replace (zlen (ys1 ++ ys2) / f) with (m + zlen ys2 / f).
        2: { zl. rewrite Ly1, HV. rewrite Z.div_add_l by lia. reflexivity. }
        rewrite ztab_app; [|lia|apply Z.div_pos; [apply zlen_nonneg|lia]].
        rewrite map_app. f_equal.
        * apply (zn_ext fz); [zl; lia|]. intros i Hi. zl.
          rewrite zn_firstn by lia. rewrite zn_skipn by lia. rewrite SV by (zl; lia). zl.
          fold (zlen blk). rewrite (zn_map down zero) by (zl; lia). rewrite !zn_ztab by lia.
          assert (f * i < n) by nia. rewrite (zn_app _ ys1). zcase.
          do 2 f_equal. nia.
        * f_equal. apply ztab_ext. intros i Hi. rewrite zn_app.
          assert (0 <= f * i) by nia. zcase. f_equal. nia.
  Qed.

  Theorem decimator_stream junk n f calls : 2 <= f -> 0 <= n -> (f | n) -> blocks n (n / f) calls ->
    exists d outs ys zs,
      (d0 <- decimator_new zero lit junk n f ;; decimator_run add sub mul up down d0 calls) = OK (d, outs) /\
      (let '(b, a) := coefficients f in
       iir_response zero add sub mul (lead b) (pairs b a) (map up (fed calls)) ys) /\
      every zero f ys zs /\ got (n / f) outs = map down zs /\ beyond_kept (n / f) calls outs.
  Proof.
    intros Hf Hn HV HB. destruct (new_ok junk n f ltac:(lia) Hn) as (d0 & E0 & HD).
    rewrite E0. cbn [bind].
    destruct (dec_run_spec f n Hf Hn calls d0 _ HB HD) as (d & outs & E & K & _ & R).
    unfold resp_run in R. destruct (coefficients f) as [b a] eqn:EC.
    assert (LP : length (pairs b a) = 7%nat /\ pairs b a <> []).
    { revert EC. unfold coefficients. zcase; intros [= <- <-]; split; try reflexivity; discriminate. }
    destruct LP as [LP NP].
    pose proof (grun_response zero add sub mul (lead b) (pairs b a) (map up (fed calls)) NP) as GR.
    rewrite LP in GR.
    destruct (grun (lead b) (pairs b a) (repeat zero 7) (map up (fed calls))) as [o' ys].
    destruct GR as [GR _]. destruct R as [_ HG].
    exists d, outs, ys, (ztab (zlen ys / f) (fun j => Zn ys (f * j))). splits; auto.
    split; [|intros j Hj; zl].
    - zl. pose proof (Z.div_pos (zlen ys) f (zlen_nonneg ys) ltac:(lia)). lia.
    - rewrite zn_ztab by lia. reflexivity.
  Qed.

  (** After resetFilter, as new: same behaviour from then on. *)
  Theorem decimator_reset_fresh junk n f calls0 calls : 2 <= f -> 0 <= n ->
    blocks n (n / f) calls0 -> blocks n (n / f) calls ->
    exists d1 outs0 d' d'' outs,
      (d0 <- decimator_new zero lit junk n f ;; decimator_run add sub mul up down d0 calls0) = OK (d1, outs0) /\
      decimator_run add sub mul up down (decimator_reset zero d1) calls = OK (d', outs) /\
      (d0 <- decimator_new zero lit junk n f ;; decimator_run add sub mul up down d0 calls) = OK (d'', outs).
  Proof.
    intros Hf Hn HB0 HB. destruct (new_ok junk n f ltac:(lia) Hn) as (d0 & E0 & HD).
    rewrite E0. cbn [bind].
    destruct (dec_run_spec f n Hf Hn calls0 d0 _ HB0 HD) as (d1 & outs0 & E1 & _ & _ & R1).
    destruct (resp_run f (repeat zero 7) (map up (fed calls0))) as [o1 ys1]. destruct R1 as [HD1 _].
    apply reset_ok in HD1.
    destruct (dec_run_spec f n Hf Hn calls _ _ HB HD1) as (d2 & outs2 & E2 & _ & X2 & _).
    destruct (dec_run_spec f n Hf Hn calls _ _ HB HD) as (d3 & outs3 & E3 & _ & X3 & _).
    exists d1, outs0, d2, d3, outs2. subst. splits; auto.
  Qed.

  (** In place: the values stored do not depend on where dst is. *)
  Theorem decimator_in_place junk n f calls0 mem src dst : 2 <= f -> 0 <= n ->
    blocks n (n / f) calls0 -> inside mem src n -> inside mem dst (n / f) ->
    exists d1 outs0 d2 mem2 d3 vs,
      (d0 <- decimator_new zero lit junk n f ;; decimator_run add sub mul up down d0 calls0) = OK (d1, outs0) /\
      process d1 mem src dst = OK (d2, mem2) /\
      decimator_block add sub mul up down d1 (slice mem src n) (repeat fz (Z.to_nat (n / f))) = OK (d3, vs) /\
      zlen vs = n / f /\ stored fz mem dst vs mem2.
  Proof.
    intros Hf Hn HB0 Hs Hd. destruct (new_ok junk n f ltac:(lia) Hn) as (d0 & E0 & HD).
    rewrite E0. cbn [bind].
    destruct (dec_run_spec f n Hf Hn calls0 d0 _ HB0 HD) as (d1 & outs0 & E1 & _ & _ & R1).
    destruct (resp_run f (repeat zero 7) (map up (fed calls0))) as [o1 ys1]. destruct R1 as [HD1 _].
    destruct (process_spec d1 f n o1 mem src dst HD1 Hf Hs Hd) as (d2 & mem2 & E2 & R2).
    assert (Hq : 0 <= n / f) by (apply Z.div_pos; lia).
    destruct Hs as (S0 & S1 & S2).
    destruct (process_spec d1 f n o1 (slice mem src n ++ repeat fz (Z.to_nat (n / f))) 0 n HD1 Hf)
      as (d3 & mem3 & E3 & R3).
    { split; [lia|]. zl. rewrite zlen_slice by lia. lia. }
    { split; [lia|]. zl. rewrite zlen_slice by lia. lia. }
    replace (slice (slice mem src n ++ _) 0 n) with (slice mem src n) in R3.
    2: { apply (zn_ext fz); [rewrite !zlen_slice; zl; rewrite ?zlen_slice; lia|].
         rewrite zlen_slice by lia. intros i Hi. rewrite (zn_slice _ _ 0) by lia.
         rewrite zn_app, zlen_slice by lia. zcase. f_equal. }
    destruct (resp_run f o1 (map up (slice mem src n))) as [o' ys].
    destruct R2 as [_ R2], R3 as [_ [L3 R3]].
    exists d1, outs0, d2, mem2, d3, (skipn (length (slice mem src n)) mem3).
    splits; auto.
    - unfold decimator_block. rewrite zlen_slice by lia. now rewrite E3.
    - pose proof (zlen_slice mem src n S0 S1 S2) as LS. zl. lia.
    - replace (skipn (length (slice mem src n)) mem3) with (ztab (n / f) (fun j => down (Zn ys (f * j)))); auto.
      pose proof (zlen_slice mem src n S0 S1 S2) as LS. zl.
      apply (zn_ext fz); [zl; lia|].
      intros i Hi. zl. rewrite zn_skipn by lia. zl. rewrite LS.
      rewrite R3 by lia. zl. zcase. f_equal; lia.
  Qed.

  (** Factor 1 copies forwards. *)
  Lemma factor1_spec d n o mem src dst :
    dec_ok d 1 n o -> inside mem src n -> inside mem dst n -> dst <= src \/ src + n <= dst ->
    exists mem', process d mem src dst = OK (d, mem') /\ stored fz mem dst (slice mem src n) mem'.
  Proof.
    intros (_ & _ & _ & Ho & Hf & _) (S0 & S1 & S2) (D0 & _ & D2) HO. unfold decimator_process.
    rewrite Hf. cbn [Z.eqb Pos.eqb]. rewrite Ho, Z.quot_1_r.
    match goal with |- context [for_up 0 n ?Fn ?S] =>
      destruct (for_up_inv (fun i m => zlen m = zlen mem /\ forall k, 0 <= k < zlen mem ->
          zn fz m k = if (dst <=? k) && (k <? dst + i) then zn fz mem (src + (k - dst)) else zn fz mem k)
        0 n Fn S) as (mem' & E & HL & HV); [lia| | |] end.
    - split; auto. intros k Hk. zcase; auto.
    - intros i m Hi (I1 & I2). rewrite (aget_OK fz) by lia. cbn [bind]. rewrite aset_OK by lia.
      eexists; split; [reflexivity|]. split; [zl; lia|]. intros k Hk. rewrite zn_upd by lia.
      rewrite !I2 by lia. zcase; auto; f_equal; lia.
    - rewrite E. cbn [bind]. exists mem'. split; [reflexivity|]. split; auto. intros i Hi.
      rewrite HV by lia. rewrite zlen_slice by lia. zcase; auto. rewrite zn_slice by lia. f_equal; lia.
  Qed.
End Proofs.
