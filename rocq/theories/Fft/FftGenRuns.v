(** Class FFT runs without undefined behaviour, whatever the scalars. *)
From Coq Require Import ZArith Lia List Bool.
From Verif.Base Require Import Imp RealOps Loops.
From Verif.Fft Require Import FftModel FftBfly FftWork FftProofs FftGen FftGenProofs.
Import ListNotations.
Open Scope Z_scope.

Section Gen.
  Context {T : Type} (zero half : T) (add sub mul : T -> T -> T) (opp : T -> T).
  Notation C := (T * T)%type.
  Notation gz := (gz zero).

  Lemma g_work_runs N inv (tw : list C) : zlen tw = N -> 0 < N -> N <= 2 ^ 30 -> forall facs n F off f foff fstride istr,
    chain n facs -> 1 <= fstride -> fstride * n = N -> 0 <= off -> off + n <= zlen F ->
    (forall j, 0 <= j < n -> 0 <= foff + j * (fstride * istr) < zlen f) ->
    exists F', g_work zero half add sub mul opp N inv tw facs F off f foff fstride istr = OK F' /\ zlen F' = zlen F.
  Proof.
    intros Ntw Np Ns. induction facs as [|x|p m rest IH] using list_ind2; [intros; simpl in *; tauto..|].
    intros n F off f foff fstride istr (Hp & Hm & -> & Hc) Hfs HN Hoff HL Hf.
    cbn [g_work]. set (S1 := fstride * istr) in *.
    match goal with |- context [bind ?B _] => assert (Q : exists F1, B = OK F1 /\ zlen F1 = zlen F) end.
    { destruct (Z.eqb_spec m 1) as [->|Nm].
      - apply (for_up_inv (fun _ G => zlen G = zlen F)); auto; [lia|].
        intros q G Hq I. rewrite (aget_OK gz) by (apply Hf; lia). ret. rewrite aset_OK by lia.
        eexists; split; [reflexivity|]. zl. auto.
      - destruct Hc as [Hc|Hc]; [lia|].
        apply (for_up_inv (fun _ G => zlen G = zlen F)); auto; [lia|].
        intros q G Hq I.
        destruct (IH m G (off + q * m) f (foff + q * S1) (fstride * p) istr) as (F1 & E & J); auto; try nia.
        { intros j Hj. replace (foff + q * S1 + j * (fstride * p * istr)) with (foff + (j * p + q) * S1) by (unfold S1; ring).
          apply Hf. nia. }
        exists F1. split; [exact E|lia]. }
    destruct Q as (F1 & E1 & L1). rewrite E1. ret.
    destruct (g_bfly_ok zero half add sub mul opp N inv tw Ntw Np Ns p m fstride off (zlen F1) F1) as (F2 & E2 & L2 & _); auto; try lia.
    exists F2. split; auto. lia.
  Qed.

  Context (tw : bool -> Z -> Z -> C) (scale : Z -> T).
  Definition gready (n : Z) (o : @gfft T) : Prop :=
    g_n o = n /\ g_alloc tw n false = OK (g_planf o) /\ g_alloc tw n true = OK (g_plani o) /\
    zlen (g_kin o) = n /\ zlen (g_kout o) = n.

  Lemma g_alloc_ok n inv : 1 <= n < 2 ^ 31 -> exists facs, kf_factor n = OK facs /\ chain n facs /\
    g_alloc tw n inv = OK {| p_n := n; p_inv := inv; p_fac := facs; p_tw := ztab n (tw inv n) |}.
  Proof.
    intros Hn. destruct (kf_factor_ok n Hn) as (facs & E & C & _). exists facs. splits; auto. unfold g_alloc. rewrite E. ret. reflexivity.
  Qed.
  Lemma g_new_ready n ji jo : 1 <= n < 2 ^ 31 -> zlen ji = n -> zlen jo = n ->
    exists o, g_new tw n ji jo = OK o /\ gready n o.
  Proof.
    intros Hn L1 L2. unfold g_new.
    destruct (g_alloc_ok n false Hn) as (f & Ef & _ & Af). destruct (g_alloc_ok n true Hn) as (i & Ei & _ & Ai).
    rewrite Af, Ai. ret. ret. eexists; split; [reflexivity|]. unfold gready; cbn. splits; auto.
  Qed.

  Definition ginput (ri : list T) (ii : option (list T)) (j : Z) : C :=
    (zn zero ri j, match ii with Some ii => zn zero ii j | None => zero end).
  Definition gscaled (inv : bool) (n : Z) (v : T) : T := if inv then mul v (scale n) else v.

  Lemma g_process_runs n o inv ri ii ro io :
    1 <= n <= 2 ^ 30 -> gready n o -> n <= zlen ri -> (forall l, ii = Some l -> n <= zlen l) ->
    n <= zlen ro -> n <= zlen io ->
    exists o' facs kout, kf_factor n = OK facs /\ chain n facs /\
      g_work zero half add sub mul opp n inv (ztab n (tw inv n)) facs (g_kout o) 0 (ztab n (ginput ri ii)) 0 1 1 = OK kout /\
      zlen kout = n /\
      g_process zero half add sub mul opp scale o inv ri ii ro io =
        OK (o', ztab n (fun k => gscaled inv n (fst (zn gz kout k))) ++ skipn (Z.to_nat n) ro,
                ztab n (fun k => gscaled inv n (snd (zn gz kout k))) ++ skipn (Z.to_nat n) io) /\
      gready n o'.
  Proof.
    intros Hn (R1 & R2 & R3 & R4 & R5) Lr Li Lo1 Lo2.
    destruct (g_alloc_ok n inv ltac:(lia)) as (facs & Ef & Ch & Al).
    destruct (g_work_runs n inv (ztab n (tw inv n))) with (facs := facs) (n := n) (F := g_kout o) (off := 0) (f := ztab n (ginput ri ii)) (foff := 0) (fstride := 1) (istr := 1)
      as (kout & Ew & Lk); auto; try lia; [zl; lia|intros j Hj; zl; lia|].
    unfold g_process. rewrite R1.
    rewrite (for_up_tab n _ (ginput ri ii)).
    2: lia.
    2:{ intros i s Hi _ _ _. rewrite (aget_OK zero) by lia. ret. unfold ginput. destruct ii as [l|].
        - rewrite (aget_OK zero) by (specialize (Li l eq_refl); lia). ret. reflexivity.
        - ret. reflexivity. }
    ret. rewrite skipn_zlen, app_nil_r by lia.
    assert (Pl : (if inv then g_plani o else g_planf o) = {| p_n := n; p_inv := inv; p_fac := facs; p_tw := ztab n (tw inv n) |}).
    { destruct inv; [rewrite R3 in Al|rewrite R2 in Al]; injection Al as ->; reflexivity. }
    rewrite Pl. cbn [p_n p_inv p_fac p_tw]. unfold g_kiss_fft. rewrite Ew. ret.
    match goal with |- context [for_up 0 n ?B (ro, io)] =>
      replace (for_up 0 n B (ro, io)) with (OK (ztab n (fun k => gscaled inv n (fst (zn gz kout k))) ++ skipn (Z.to_nat n) ro,
              ztab n (fun k => gscaled inv n (snd (zn gz kout k))) ++ skipn (Z.to_nat n) io)) end.
    - ret. eexists _, facs, kout. splits; auto; [lia|]. unfold gready; cbn. splits; auto; zl; lia.
    - symmetry.
      apply (for_up_out2 n (aget kout) (zn gz kout) (fun v => gscaled inv n (fst v)) (fun v => gscaled inv n (snd v))); auto; try lia.
      intros i Hi. now rewrite (aget_OK gz) by lia.
  Qed.
End Gen.
