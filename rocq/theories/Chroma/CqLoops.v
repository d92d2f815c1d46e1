(** The loops of the constant-Q code. *)
From Coq Require Import List ZArith Reals Lia Lra Bool.
From Verif.Base Require Import Imp Sums RealOps Loops.
From Verif.Maths Require Import IntModel.
From Verif.Windows Require Import WindowModel WindowProofs.
From Verif.Fft Require Import Cplx FftModel FftSpec.
From Verif.Chroma Require Import CqModel CqSpec.
Import ListNotations.
Open Scope Z_scope.

Lemma int_OK x : INT_MIN <= x <= INT_MAX -> int_ x = OK x.
Proof. intros H. unfold int_. destruct (Z.leb_spec INT_MIN x), (Z.leb_spec x INT_MAX); cbn; auto; lia. Qed.

(** [for (i = 0; i < l; ++i) w[og + i] = g(i, w[og + i])] *)
Lemma for_up_at l og (body : Z -> list R -> res (list R)) (g : Z -> R -> R) w :
  0 <= l -> 0 <= og -> og + l <= zlen w ->
  (forall i s, 0 <= i < l -> zlen s = zlen w -> body i s = aset s (og + i) (g i (zn 0%R s (og + i)))) ->
  for_up 0 l body w = OK (ztab (zlen w) (fun t => if (og <=? t) && (t <? og + l) then g (t - og) (zn 0%R w t) else zn 0%R w t)).
Proof.
  intros Hl Ho Hw Hb.
  destruct (for_up_inv (fun i s => zlen s = zlen w /\ forall t, 0 <= t < zlen w ->
    zn 0%R s t = if (og <=? t) && (t <? og + i) then g (t - og) (zn 0%R w t) else zn 0%R w t) 0 l body w) as (s & E & L & V).
  - lia.
  - split; auto. intros t Ht. zcase; auto.
  - intros i s Hi (L & V). rewrite Hb, aset_OK by lia. eexists; split; [reflexivity|]. split; [zl; lia|].
    intros t Ht. rewrite zn_upd by lia. rewrite !V by lia. zcase; subst; auto; try lia. f_equal. lia.
  - rewrite E. f_equal. apply (zn_ext 0%R); [zl; lia|]. intros t Ht. rewrite zn_ztab by lia. apply V. lia.
Qed.

Lemma fill2_at l og g1 g2 w1 w2 :
  0 <= l -> 0 <= og -> og + l <= zlen w1 -> zlen w2 = zlen w1 ->
  for_up 0 l (fun i '(a, b) => a <- aset a (og + i) (g1 i) ;; b <- aset b (og + i) (g2 i) ;; OK (a, b)) (w1, w2)
  = OK (ztab (zlen w1) (fun t => if (og <=? t) && (t <? og + l) then g1 (t - og) else zn 0%R w1 t),
        ztab (zlen w1) (fun t => if (og <=? t) && (t <? og + l) then g2 (t - og) else zn 0%R w2 t)).
Proof.
  intros Hl Ho Hw L2.
  match goal with |- for_up 0 l ?B _ = _ =>
  destruct (for_up_inv (fun i '(a, b) => zlen a = zlen w1 /\ zlen b = zlen w1 /\ forall t, 0 <= t < zlen w1 ->
    zn 0%R a t = (if (og <=? t) && (t <? og + i) then g1 (t - og) else zn 0%R w1 t) /\
    zn 0%R b t = (if (og <=? t) && (t <? og + i) then g2 (t - og) else zn 0%R w2 t)) 0 l B (w1, w2)) as ([a b] & E & La & Lb & V) end.
  - lia.
  - splits; auto. intros t Ht. zcase; auto.
  - intros i [a b] Hi (La & Lb & V). rewrite aset_OK by lia. cbn [bind]. rewrite aset_OK by lia. cbn [bind].
    eexists; split; [reflexivity|]. split; [zl; lia|]. split; [zl; lia|].
    intros t Ht. rewrite !zn_upd by lia. destruct (V t Ht) as [V1 V2]. rewrite V1, V2.
    zcase; subst; auto; try lia. split; f_equal; lia.
  - rewrite E. do 2 f_equal; (apply (zn_ext 0%R); [zl; lia|]); intros t Ht; rewrite zn_ztab by lia; apply V; lia.
Qed.

Lemma zeros2 n w1 w2 : 0 <= n -> zlen w1 = n -> zlen w2 = n ->
  for_up 0 n (fun i '(a, b) => a <- aset a i 0%R ;; b <- aset b i 0%R ;; OK (a, b)) (w1, w2)
  = OK (ztab n (fun _ => 0%R), ztab n (fun _ => 0%R)).
Proof.
  intros Hn L1 L2.
  exact (for_up_set2 n (fun _ => OK 0%R) (fun _ => OK 0%R) (fun _ => 0%R) (fun _ => 0%R) w1 w2 Hn (eq_sym L1) (eq_sym L2)
    (fun _ _ => eq_refl) (fun _ _ => eq_refl)).
Qed.

Lemma swap_halves_ok h w : 0 <= h -> zlen w = 2 * h ->
  swap_halves h w = OK (ztab (2 * h) (fun t => zn 0%R w ((t + h) mod (2 * h)))).
Proof.
  intros Hh L. unfold swap_halves.
  match goal with |- for_up 0 h ?B _ = _ =>
  destruct (for_up_inv (fun i s => zlen s = 2 * h /\ forall t, 0 <= t < 2 * h ->
    zn 0%R s t = if (t <? i) || ((h <=? t) && (t <? h + i)) then zn 0%R w ((t + h) mod (2 * h)) else zn 0%R w t) 0 h B w) as (s & E & Ls & V) end.
  - lia.
  - split; auto. intros t Ht. zcase; auto.
  - intros i s Hi (Ls & V). rewrite !(aget_OK 0%R) by lia. cbn [bind]. rewrite aset_OK by lia. cbn [bind].
    rewrite aset_OK by (zl; lia). eexists; split; [reflexivity|]. split; [zl; lia|].
    intros t Ht. rewrite zn_upd by (zl; lia). rewrite zn_upd by lia. rewrite !V by lia.
    assert (H0 : h <= i + h < 2 * h) by lia.
    assert (M1 : (i + h) mod (2 * h) = i + h) by (apply Z.mod_small; lia).
    assert (M2 : (i + h + h) mod (2 * h) = i) by (replace (i + h + h) with (i + 1 * (2 * h)) by lia; rewrite Z.mod_add, Z.mod_small; lia).
    zcase; subst; auto; try lia; try (now rewrite M1); try (now rewrite M2); try (rewrite (Z.add_comm h i) in *; lia).
  - rewrite E. f_equal. apply (zn_ext 0%R); [zl; lia|]. intros t Ht. rewrite zn_ztab by lia. rewrite V by lia. zcase; auto.
Qed.

Lemma hamming_ok l : 1 <= l -> encache Hamming l = OK (ztab l (hamming l)).
Proof.
  intros Hl. destruct (Z.eq_dec l 1) as [->|].
  - rewrite encache_1. f_equal.
  - rewrite encache_cos by (congruence || lia). f_equal. apply ztab_ext. intros i Hi. unfold shape, hamming, ck. zcase. reflexivity.
Qed.

Lemma cut_from_ok l og c w : 0 <= l -> 0 <= og -> og + l <= zlen w -> l <= zlen c ->
  cut_from c l og w = OK (ztab (zlen w) (fun t => if (og <=? t) && (t <? og + l) then (zn 0%R w t * zn 0%R c (t - og))%R else zn 0%R w t)).
Proof.
  intros. unfold cut_from.
  apply (for_up_at l og _ (fun i s => (s * zn 0%R c i)%R)); auto.
  intros i s Hi L. rewrite !(aget_OK 0%R) by lia. reflexivity.
Qed.
Lemma scale_from_ok l og w : 0 <= l -> 0 <= og -> og + l <= zlen w ->
  scale_from l og w = OK (ztab (zlen w) (fun t => if (og <=? t) && (t <? og + l) then (zn 0%R w t / IZR l)%R else zn 0%R w t)).
Proof.
  intros. unfold scale_from.
  apply (for_up_at l og _ (fun i s => (s / IZR l)%R)); auto.
  intros i s Hi L. rewrite !(aget_OK 0%R) by lia. reflexivity.
Qed.

(** *** The temporal kernel *)
Definition half_ok (n : Z) : Prop := n = 1 \/ (2 <= n /\ n = 2 * (n / 2)).

Lemma temporal_ok o j wr wi (n := q_len o) (l := window_length (q_fs o) (q_fmin o) (q_bpo o) j) :
  q_dq o = quality (q_bpo o) -> half_ok n -> 1 <= l <= n -> n <= INT_MAX -> zlen wr = n -> zlen wi = n ->
  temporal o j wr wi =
  OK (ztab n (fun t => fst (rotated n (atom (q_fs o) (q_fmin o) (q_bpo o) n j) t)),
      ztab n (fun t => snd (rotated n (atom (q_fs o) (q_fmin o) (q_bpo o) n j) t))).
Proof.
  intros Hq Hh Hl Hi Lr Li. unfold temporal. fold n. rewrite zeros2 by (auto; lia). cbn [bind].
  rewrite Hq. change (Zceil _) with l. rewrite int_OK by (unfold INT_MIN; lia). cbn [bind].
  rewrite !Z.quot_div_nonneg by lia.
  assert (H2 : 0 <= n / 2 - l / 2 /\ n / 2 - l / 2 + l <= n).
  { pose proof (Z.div_mod n 2). pose proof (Z.div_mod l 2). pose proof (Z.mod_pos_bound n 2). pose proof (Z.mod_pos_bound l 2).
    destruct Hh as [->|]; [assert (l = 1) as -> by lia; cbn; lia|]. lia. }
  set (og := n / 2 - l / 2) in *.
  rewrite (fill2_at l og (fun i => cos ((2 * PI * quality (q_bpo o) * IZR i) / IZR l)%R) (fun i => sin ((2 * PI * quality (q_bpo o) * IZR i) / IZR l)%R))
    by (zl; lia). cbn [bind].
  rewrite hamming_ok by lia. cbn [bind].
  repeat (rewrite cut_from_ok by (zl; lia); cbn [bind]).
  repeat (rewrite scale_from_ok by (zl; lia); cbn [bind]).
  assert (G : forall w f, zlen w = n -> (forall t, 0 <= t < n -> zn 0%R w t = f t) ->
     swap_halves (n / 2) w = OK (ztab n (fun t => f ((t + n / 2) mod n)))).
  { intros w f L V. destruct Hh as [N|[N1 N2]].
    - rewrite N in *. change (1 / 2) with 0. unfold swap_halves. rewrite for_up_empty by lia. f_equal.
      apply (zn_ext 0%R); [zl; lia|]. intros t Ht. rewrite zn_ztab by lia. rewrite V by lia. f_equal. rewrite Z.mod_small; lia.
    - rewrite swap_halves_ok by lia. rewrite <- N2. f_equal. apply ztab_ext. intros t Ht. apply V. apply Z.mod_pos_bound. lia. }
  set (A := atom (q_fs o) (q_fmin o) (q_bpo o) n j).
  assert (VA : forall t, A t = if (og <=? t) && (t <? og + l) then
     cmul (cre (hamming l (t - og) / IZR l)) (cis (2 * PI * quality (q_bpo o) * IZR (t - og) / IZR l)) else c0).
  { intros t. unfold A, atom. fold l. fold og. zcase; reflexivity. }
  rewrite (G _ (fun t => fst (A t))). 2: zl; lia.
  2:{ intros t Ht. zl. rewrite Z.max_r by lia. rewrite !zn_ztab by lia. rewrite VA.
      destruct ((og <=? t) && (t <? og + l)) eqn:B; [|reflexivity].
      apply andb_prop in B as [B1 B2]. apply Z.leb_le in B1. apply Z.ltb_lt in B2.
      rewrite zn_ztab by lia. cbn. unfold Rdiv. ring. }
  cbn [bind].
  rewrite (G _ (fun t => snd (A t))). 2: zl; lia.
  2:{ intros t Ht. zl. rewrite Z.max_r by lia. rewrite !zn_ztab by lia. rewrite VA.
      destruct ((og <=? t) && (t <? og + l)) eqn:B; [|reflexivity].
      apply andb_prop in B as [B1 B2]. apply Z.leb_le in B1. apply Z.ltb_lt in B2.
      rewrite zn_ztab by lia. cbn. unfold Rdiv. ring. }
  reflexivity.
Qed.
