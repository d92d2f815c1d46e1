(** baum_welch and the observation densities: what the loops compute. *)
From Coq Require Import List ZArith Reals Lia Lra Bool.
From Verif.Base Require Import Imp RealOps Sums Loops Matrix.
From Verif.Hmm Require Import HmmModel HmmSpec HmmForward HmmFb HmmTrain.
Import ListNotations.
Open Scope Z_scope.

(** A loop replacing row after row. *)
Lemma for_rows {A} n k (body : Z -> list (list A) -> res (list (list A))) (g : Z -> Z -> A) m :
  0 <= n -> 0 <= k -> shape n k m ->
  (forall i s, 0 <= i < n -> zlen s = n -> (forall r, i <= r < n -> zlen (zn [] s r) = k) ->
    (forall r, 0 <= r < i -> zn [] s r = ztab k (g r)) -> (forall r, i <= r -> zn [] s r = zn [] m r) ->
    body i s = aset s i (ztab k (g i))) ->
  for_up 0 n body m = OK (tab2 n k g).
Proof.
  intros Hn Hk [L S] Hb. rewrite (for_up_tab n body (fun i => ztab k (g i))).
  - rewrite skipn_zlen by lia. now rewrite app_nil_r.
  - lia.
  - intros i s Hi Ls V1 V2. apply Hb; auto; try lia.
    intros r Hr. rewrite V1 by lia. apply S. lia.
Qed.
Lemma fill_ok n (e : Z -> res R) g l : 0 <= n -> zlen l = n -> (forall i, 0 <= i < n -> e i = OK (g i)) ->
  for_up 0 n (fun i s => v <- e i ;; aset s i v) l = OK (ztab n g).
Proof. intros Hn L H. rewrite (for_up_set n e g) by (auto; lia). rewrite skipn_zlen by lia. now rewrite app_nil_r. Qed.

Section Baum.
  Variables (junk : R) (N T : Z).
  Hypothesis HN : 1 <= N.
  Hypothesis HT : 1 <= T.

  Section Probs.
    Variables (p0 : list R) (a : list (list R)) (xi : list (list (list R))) (gamma : list (list R)).
    Hypothesis Lp : zlen p0 = N.
    Hypothesis Sa : shape N N a.
    Hypothesis Sg : shape T N gamma.
    Hypothesis Sx : xi_ok N T xi.
    Local Notation gm := (ent 0%R gamma).
    Definition sum_to (n : Z) (i : Z) : R := rsum n (fun t => gm t i).
    Lemma reestimate_probs_ok : reestimate_probs junk N T p0 a xi gamma =
      OK (ztab N (gm 0),
        tab2 N N (fun i j => if Reqb (sum_to (T - 1) i) 0 then 0
          else rsum (T - 1) (fun t => ent 0 (zn [] xi t) i j) / sum_to (T - 1) i)%R,
        ztab N (sum_to T)).
    Proof.
      unfold reestimate_probs. rewrite (fill_ok N _ (sum_to (T - 1))); [|lia|zl; lia|].
      2: { intros i Hi. rewrite (sum_up_ok (T - 1) _ (fun t => gm t i)) by
           (try lia; intros t Ht; apply mget_OK with (n := T) (k := N); auto; lia). f_equal. unfold sum_to. lra. }
      cbn [bind].
      rewrite (for_rows N N _ (fun i j => if Reqb (sum_to (T - 1) i) 0 then 0
          else rsum (T - 1) (fun t => ent 0 (zn [] xi t) i j) / sum_to (T - 1) i)%R); [|lia|lia|auto|].
      2: { intros i s Hi Ls Rs _ _. rewrite (aget_OK []) by lia. cbn [bind]. rewrite (aget_OK 0%R) by (zl; lia). cbn [bind].
           rewrite zn_ztab by lia.
           rewrite (for_up_tab N _ (fun j => if Reqb (sum_to (T - 1) i) 0 then 0
             else rsum (T - 1) (fun t => ent 0 (zn [] xi t) i j) / sum_to (T - 1) i)%R).
           - cbn [bind]. rewrite skipn_zlen by (rewrite Rs; lia). now rewrite app_nil_r.
           - rewrite Rs; lia.
           - intros j r Hj _ _ _. destruct (Reqb _ _); auto.
             rewrite (sum_up_ok (T - 1) _ (fun t => ent 0 (zn [] xi t) i j)%R).
             + cbn [bind]. now rewrite Rplus_0_l.
             + lia.
             + intros t Ht. destruct Sx as [Lx Rx]. rewrite (aget_OK []) by lia. cbn [bind].
               apply mget_OK with (n := N) (k := N); auto. apply Rx; lia. }
      cbn [bind]. rewrite (for_up_tab N _ (sum_to T)); [|zl; lia|].
      2: { intros i s Hi Ls V _. revert Ls. zl. intros Ls. rewrite (aget_OK 0%R) by lia. cbn [bind].
           rewrite (mget_OK 0%R T N) by (auto; lia). cbn [bind].
           rewrite V by lia. rewrite zn_ztab by lia. f_equal. unfold sum_to. replace T with (T - 1 + 1) at 3 by lia. now rewrite rsum_S by lia. }
      cbn [bind]. rewrite skipn_zlen by (zl; lia). rewrite app_nil_r.
      rewrite (fill_ok N _ (gm 0)); [|lia|lia|intros i Hi; apply mget_OK with (n := T) (k := N); auto; lia].
      reflexivity.
    Qed.
  End Probs.

  Section Gaussian.
    Variables (L : Z) (x mu cov gamma : list (list R)).
    Hypothesis HL : 0 <= L.
    Hypothesis Sx : shape T L x.
    Hypothesis Sm : shape N L mu.
    Hypothesis Sc : shape L L cov.
    Hypothesis Sg : shape T N gamma.
    Local Notation xf := (ent 0%R x).
    Local Notation mf := (ent 0%R mu).
    Local Notation gm := (ent 0%R gamma).

    Lemma reestimate_means_ok sg : zlen sg = N ->
      reestimate_means N T L x mu gamma sg = OK (tab2 N L (fun j d => rsum T (fun t => gm t j * xf t d) / zn 0 sg j)%R).
    Proof.
      intros Ls. unfold reestimate_means. apply for_rows; auto; try lia.
      intros j s Hj Lj Rj _ _. rewrite (aget_OK []) by lia. cbn [bind]. rewrite (aget_OK 0%R) by lia. cbn [bind].
      rewrite (for_up_tab L _ (fun d => rsum T (fun t => gm t j * xf t d) / zn 0 sg j)%R).
      - cbn [bind]. rewrite skipn_zlen by (rewrite Rj; lia). now rewrite app_nil_r.
      - rewrite Rj; lia.
      - intros d r Hd _ _ _. rewrite (sum_up_ok T _ (fun t => gm t j * xf t d)%R).
        + cbn [bind]. now rewrite Rplus_0_l.
        + lia.
        + intros t Ht. rewrite (mget_OK 0%R T N) by (auto; lia). cbn [bind]. now rewrite (mget_OK 0%R T L) by (auto; lia).
    Qed.

    (** A flat array holding an n by k table. *)
    Definition flat (n k : Z) (f : Z -> Z -> R) (u : list R) : Prop :=
      zlen u = n * k /\ forall i j, 0 <= i < n -> 0 <= j < k -> zn 0%R u (i * k + j) = f i j.
    Lemma idx n k i j : 0 <= i < n -> 0 <= j < k -> 0 <= i * k + j < n * k.
    Proof. nia. Qed.
    Lemma idx_inj k i j i' j' : 0 <= j < k -> 0 <= j' < k -> i * k + j = i' * k + j' -> i = i' /\ j = j'.
    Proof.
      intros Hj Hj' E. assert (i = i') by nia. subst. lia.
    Qed.
    (** Filling it row by row. *)
    Lemma fill_flat n k (e : Z -> Z -> res R) f u : 0 <= n -> 0 <= k -> zlen u = n * k ->
      (forall i j, 0 <= i < n -> 0 <= j < k -> e i j = OK (f i j)) ->
      exists u', for_up 0 n (fun i u => for_up 0 k (fun j u => v <- e i j ;; aset u (i * k + j) v) u) u = OK u' /\ flat n k f u'.
    Proof.
      intros Hn Hk Lu He.
      destruct (for_up_inv (fun i u => zlen u = n * k /\ forall r j, 0 <= r < i -> 0 <= j < k -> zn 0%R u (r * k + j) = f r j) 0 n
        (fun i u => for_up 0 k (fun j u => v <- e i j ;; aset u (i * k + j) v) u) u) as (u' & E & L1 & V1).
      - lia.
      - split; auto. intros; lia.
      - intros i u1 Hi (L1 & V1).
        destruct (for_up_inv (fun c u => zlen u = n * k /\ (forall r j, 0 <= r < i -> 0 <= j < k -> zn 0%R u (r * k + j) = f r j) /\
          (forall j, 0 <= j < c -> zn 0%R u (i * k + j) = f i j)) 0 k (fun j u => v <- e i j ;; aset u (i * k + j) v) u1)
          as (u2 & E2 & L2 & V2 & V3).
        + lia.
        + splits; auto. intros; lia.
        + intros j u2 Hj (L2 & V2 & V3). rewrite He by lia. cbn [bind]. pose proof (idx n k i j Hi Hj).
          rewrite aset_OK by lia. eexists; split; [reflexivity|]. splits; [zl; lia| |].
          * intros r c Hr Hc. pose proof (idx n k r c ltac:(lia) Hc). rewrite zn_upd by lia.
            destruct (Z.eqb_spec (r * k + c) (i * k + j)) as [E2|]; [|auto]. apply idx_inj in E2; lia.
          * intros c Hc. pose proof (idx n k i c Hi ltac:(lia)). rewrite zn_upd by lia.
            destruct (Z.eqb_spec (i * k + c) (i * k + j)) as [E2|]; [|apply V3; lia]. now replace c with j by lia.
        + exists u2. splits; auto. intros r j Hr Hj. destruct (Z.eq_dec r i) as [->|]; [apply V3; lia|apply V2; lia].
      - exists u'. split; auto. split; auto.
    Qed.

    Definition scatter (d e : Z) : R :=
      rsum N (fun j => rsum T (fun t => (xf t d - mf j d) * (gm t j * (xf t e - mf j e))))%R.

    Lemma dgemm_ok yy yy2 u f g : zlen u = L * L -> flat L T f yy -> flat L T g yy2 ->
      exists u', dgemm L T yy yy2 u = OK u' /\ flat L L (fun e d => rsum T (fun t => f d t * g e t)%R) u'.
    Proof.
      intros Lu [L1 V1] [L2 V2]. unfold dgemm.
      apply (fill_flat L L (fun e d => sum_up T (fun t => x <- aget yy (d * T + t) ;; y <- aget yy2 (e * T + t) ;; OK (x * y)%R) 0)); auto.
      intros e d He Hd. rewrite (sum_up_ok T _ (fun t => f d t * g e t)%R).
      - now rewrite Rplus_0_l.
      - lia.
      - intros t Ht. pose proof (idx L T d t Hd Ht). pose proof (idx L T e t He Ht).
        rewrite (aget_OK 0%R) by lia. cbn [bind]. rewrite (aget_OK 0%R) by lia. cbn [bind]. now rewrite V1, V2 by lia.
    Qed.

    Lemma centred_ok j yy yy2 : 0 <= j < N -> zlen yy = L * T -> zlen yy2 = L * T ->
      exists y1 y2, for_up 0 L (fun d '(yy, yy2) => for_up 0 T (fun t '(yy, yy2) =>
        v <- mget x t d ;; m <- mget mu j d ;; g <- mget gamma t j ;;
        yy <- aset yy (d * T + t) (v - m)%R ;; yy2 <- aset yy2 (d * T + t) (g * (v - m))%R ;;
        OK (yy, yy2)) (yy, yy2)) (yy, yy2) = OK (y1, y2) /\
      flat L T (fun d t => xf t d - mf j d)%R y1 /\ flat L T (fun d t => gm t j * (xf t d - mf j d))%R y2.
    Proof.
      intros Hj Ly Ly2.
      set (f := fun d t => (xf t d - mf j d)%R). set (g := fun d t => (gm t j * (xf t d - mf j d))%R).
      match goal with |- context [for_up 0 L ?F ?S] =>
        destruct (for_up_inv (fun i '((y1, y2) : list R * list R) => zlen y1 = L * T /\ zlen y2 = L * T /\
          forall r c, 0 <= r < i -> 0 <= c < T -> zn 0%R y1 (r * T + c) = f r c /\ zn 0%R y2 (r * T + c) = g r c) 0 L F S)
          as ([y1 y2] & E & L1 & L2 & V) end.
      - lia.
      - splits; auto. all: intros; lia.
      - intros d [y1 y2] Hd (L1 & L2 & V).
        match goal with |- context [for_up 0 T ?F ?S] =>
          destruct (for_up_inv (fun i '((z1, z2) : list R * list R) => zlen z1 = L * T /\ zlen z2 = L * T /\
            (forall r c, 0 <= r < d -> 0 <= c < T -> zn 0%R z1 (r * T + c) = f r c /\ zn 0%R z2 (r * T + c) = g r c) /\
            (forall c, 0 <= c < i -> zn 0%R z1 (d * T + c) = f d c /\ zn 0%R z2 (d * T + c) = g d c)) 0 T F S)
            as ([z1 z2] & E & M1 & M2 & W1 & W2) end.
        + lia.
        + splits; auto. all: intros; lia.
        + intros t [z1 z2] Ht (M1 & M2 & W1 & W2). rewrite (mget_OK 0%R T L) by (auto; lia). cbn [bind].
          rewrite (mget_OK 0%R N L) by (auto; lia). cbn [bind]. rewrite (mget_OK 0%R T N) by (auto; lia). cbn [bind].
          pose proof (idx L T d t Hd Ht). rewrite aset_OK by lia. cbn [bind]. rewrite aset_OK by lia. cbn [bind].
          eexists; split; [reflexivity|]. cbv beta iota. split; [zl; lia|]. split; [zl; lia|]. split.
          * intros r c Hr Hc. pose proof (idx L T r c ltac:(lia) Hc). rewrite !zn_upd by lia.
            destruct (Z.eqb_spec (r * T + c) (d * T + t)) as [E2|]; [|auto]. apply idx_inj in E2; lia.
          * intros c Hc. pose proof (idx L T d c Hd ltac:(lia)). rewrite !zn_upd by lia.
            destruct (Z.eqb_spec (d * T + c) (d * T + t)) as [E2|]; [|apply W2; lia]. now replace c with t by lia.
        + exists (z1, z2). split; auto. split; auto. split; auto. intros r c Hr Hc. destruct (Z.eq_dec r d) as [->|]; [apply W2; lia|apply W1; lia].
      - exists y1, y2. split; auto. split; (split; [lia|]); intros; now apply V.
    Qed.

    Lemma add_cov_ok u f c g : flat L L g u -> c = tab2 L L f ->
      for_up 0 L (fun e cov => for_up 0 L (fun d cov =>
        row <- aget cov d ;; v <- aget row e ;; w <- aget u (e * L + d) ;; row <- aset row e (v + w)%R ;; aset cov d row) cov) c
      = OK (tab2 L L (fun d e => f d e + g e d)%R).
    Proof.
      intros [Lu V] ->.
      match goal with |- for_up 0 L ?F ?S = _ =>
        destruct (for_up_inv (fun e c => c = tab2 L L (fun d e' => if e' <? e then f d e' + g e' d else f d e')%R) 0 L F S) as (c & E & ->) end.
      - lia.
      - unfold tab2. apply ztab_ext. intros d Hd. apply ztab_ext. intros e He. zcase. reflexivity.
      - intros e c He ->.
        match goal with |- context [for_up 0 L ?F ?S] =>
          destruct (for_up_inv (fun k c => c = tab2 L L (fun d e' => if (e' <? e) || ((e' =? e) && (d <? k)) then f d e' + g e' d else f d e')%R) 0 L F S)
          as (c & E & ->) end.
        + lia.
        + unfold tab2. apply ztab_ext. intros d Hd. apply ztab_ext. intros e' He'. zcase; reflexivity.
        + intros d c Hd ->. set (h := fun d e' : Z => _).
          unfold tab2. rewrite (aget_OK []) by (zl; lia). cbn [bind]. rewrite zn_ztab by lia. rewrite (aget_OK 0%R) by (zl; lia). cbn [bind].
          pose proof (idx L L e d He Hd). rewrite (aget_OK 0%R) by lia. cbn [bind]. rewrite aset_OK by (zl; lia). cbn [bind].
          rewrite aset_OK by (zl; lia). eexists; split; [reflexivity|].
          apply (zn_ext []); [zl; lia|]. intros r Hr. revert Hr. zl. intros Hr. rewrite zn_upd by (zl; lia). rewrite !zn_ztab by lia.
          destruct (Z.eqb_spec r d) as [->|].
          * apply (zn_ext 0%R); [zl; lia|]. intros c Hc. revert Hc. zl. intros Hc. rewrite zn_upd by (zl; lia). rewrite !zn_ztab by lia.
            unfold h. rewrite V by lia. zcase; subst; reflexivity.
          * apply ztab_ext. intros c Hc. unfold h. zcase; reflexivity.
        + eexists; split; [exact E|]. unfold tab2. apply ztab_ext. intros d Hd. apply ztab_ext. intros e' He'. zcase; reflexivity.
      - rewrite E. f_equal. unfold tab2. apply ztab_ext. intros d Hd. apply ztab_ext. intros e He. zcase. reflexivity.
    Qed.

    Lemma reestimate_cov_ok : reestimate_cov junk N T L x mu cov gamma = OK (tab2 L L (fun d e => scatter d e / IZR T)%R).
    Proof.
      unfold reestimate_cov.
      rewrite (for_rows L L _ (fun _ _ => 0%R)); auto.
      2: { intros d s Hd Ls Rs _ _. rewrite (aget_OK []) by lia. cbn [bind].
           rewrite (for_up_tab L _ (fun _ => 0%R)); [|rewrite Rs; lia|reflexivity]. cbn [bind].
           rewrite skipn_zlen by (rewrite Rs; lia). now rewrite app_nil_r. }
      cbn [bind].
      set (part := fun j d e => rsum j (fun j => rsum T (fun t => (xf t d - mf j d) * (gm t j * (xf t e - mf j e))))%R).
      match goal with |- context [for_up 0 N ?F ?S] =>
        destruct (for_up_inv (fun j '((c, yy, yy2, u) : list (list R) * list R * list R * list R) =>
          c = tab2 L L (part j) /\ zlen yy = L * T /\ zlen yy2 = L * T /\ zlen u = L * L) 0 N F S)
          as ([[[c yy] yy2] u] & E & -> & _) end.
      - lia.
      - splits; try (zl; nia). unfold tab2. apply ztab_ext. intros d Hd. apply ztab_ext. intros e He. unfold part. now rewrite rsum_0 by lia.
      - intros j [[[c yy] yy2] u] Hj (-> & L1 & L2 & L3).
        destruct (centred_ok j yy yy2 Hj L1 L2) as (y1 & y2 & E1 & F1 & F2). rewrite E1. cbn [bind].
        destruct (dgemm_ok y1 y2 u _ _ L3 F1 F2) as (u' & E2 & F3). rewrite E2. cbn [bind].
        rewrite (add_cov_ok u' (part j) _ _ F3 eq_refl). cbn [bind]. eexists; split; [reflexivity|]. cbv beta iota.
        destruct F1, F2, F3. splits; auto. unfold tab2. apply ztab_ext. intros d Hd. apply ztab_ext. intros e He.
        unfold part. now rewrite rsum_S by lia.
      - rewrite E. cbn [bind]. apply for_rows; auto; [apply shape_tab2; auto|].
        intros d s Hd Ls Rs _ V. rewrite (aget_OK []) by lia. cbn [bind]. rewrite V by lia. unfold tab2. rewrite zn_ztab by lia.
        now rewrite map_row_ok by lia.
    Qed.

    Variables (p0 : list R) (a : list (list R)) (xi : list (list (list R))).
    Hypothesis Lp : zlen p0 = N.
    Hypothesis Sa : shape N N a.
    Hypothesis Sxi : xi_ok N T xi.
    Lemma baum_welch_ok : baum_welch junk p0 a mu cov N T L x xi gamma =
      OK (ztab N (gm 0),
        tab2 N N (fun i j => if Reqb (sum_to gamma (T - 1) i) 0 then 0
          else rsum (T - 1) (fun t => ent 0 (zn [] xi t) i j) / sum_to gamma (T - 1) i)%R,
        tab2 N L (fun j d => rsum T (fun t => gm t j * xf t d) / sum_to gamma T j)%R,
        tab2 L L (fun d e => scatter d e / IZR T)%R).
    Proof.
      unfold baum_welch. rewrite reestimate_probs_ok by auto. cbn [bind]. rewrite reestimate_cov_ok. cbn [bind].
      rewrite reestimate_means_ok by (zl; lia). cbn [bind]. do 3 f_equal.
      unfold tab2. apply ztab_ext. intros j Hj. apply ztab_ext. intros d Hd. now rewrite zn_ztab by lia.
    Qed.
  End Gaussian.
End Baum.
