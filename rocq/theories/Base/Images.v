(** Images of computations: running a program on mapped data. *)
From Coq Require Import List ZArith Lia Bool.
From Verif.Base Require Import Imp.
Import ListNotations.
Open Scope Z_scope.

Definition rmap {A B} (h : A -> B) (r : res A) : res B := match r with OK a => OK (h a) | UB => UB | Throw => Throw | Diverge => Diverge end.

Lemma bind_rmap {A A' B B'} (h : A -> A') (h' : B -> B') (x : res A) f f' : (forall a, f' (h a) = rmap h' (f a)) -> bind (rmap h x) f' = rmap h' (bind x f).
Proof. intros H. destruct x; cbn; auto. Qed.
Lemma bind_same {A B B'} (h' : B -> B') (x : res A) f f' : (forall a, f' a = rmap h' (f a)) -> bind x f' = rmap h' (bind x f).
Proof. intros H. destruct x; cbn; auto. Qed.

Lemma for_up_rmap {A B} (h : A -> B) lo hi f f' s : (forall i s, lo <= i < hi -> f' i (h s) = rmap h (f i s)) -> for_up lo hi f' (h s) = rmap h (for_up lo hi f s).
Proof.
  destruct (Z_lt_le_dec hi lo) as [L|G]. { intros _. rewrite !for_up_empty by lia. reflexivity. }
  revert s. pattern hi. apply (Zlt_lower_bound_ind _ lo); [|exact G]. clear hi G. intros hi IH Hle s Hs.
  destruct (Z.eq_dec lo hi) as [<- |Hn]. { rewrite !for_up_empty by lia. reflexivity. }
  replace hi with (hi - 1 + 1) by lia. rewrite !for_up_last by lia. rewrite IH by (try lia; intros; apply Hs; lia).
  apply bind_rmap. intros a. apply Hs. lia.
Qed.
(** The same, for a start that is known to be an image. *)
Lemma for_up_image {A B} (h : A -> B) lo hi f f' s s' : s' = h s -> (forall i s, lo <= i < hi -> f' i (h s) = rmap h (f i s)) -> for_up lo hi f' s' = rmap h (for_up lo hi f s).
Proof. intros ->. apply for_up_rmap. Qed.
Lemma for_down_image {A B} (h : A -> B) hi lo f f' s s' : s' = h s -> (forall i s, lo <= i <= hi -> f' i (h s) = rmap h (f i s)) -> for_down hi lo f' s' = rmap h (for_down hi lo f s).
Proof.
  intros -> Hf. unfold for_down. remember (Z.to_nat (hi - lo + 1)) as n eqn:En.
  revert hi s Hf En; induction n as [|n IH]; intros hi s Hf En; cbn [for_n]; [reflexivity|].
  rewrite Hf by lia. apply bind_rmap. intros a. replace (hi + -1) with (hi - 1) by lia. apply IH; [|lia]. intros; apply Hf; lia.
Qed.
Lemma while_rmap {A B} (h : A -> B) fuel c c' f f' s : (forall s, c' (h s) = c s) -> (forall s, f' (h s) = rmap h (f s)) ->
  while fuel c' f' (h s) = rmap h (while fuel c f s).
Proof.
  intros Hc Hf. revert s. induction fuel as [|n IH]; intros s; cbn; rewrite Hc; destruct (c s); try reflexivity.
  rewrite Hf. apply bind_rmap. intros a. apply IH.
Qed.
Lemma aget_map {A B} (h : A -> B) l i : aget (map h l) i = rmap h (aget l i).
Proof.
  unfold aget. destruct (i <? 0); [reflexivity|]. rewrite nth_error_map. destruct (nth_error l (Z.to_nat i)); reflexivity.
Qed.
Lemma aset_map {A B} (h : A -> B) l i v : aset (map h l) i (h v) = rmap (map h) (aset l i v).
Proof.
  destruct (Z_lt_le_dec i 0) as [L|L]; [unfold aset; destruct (Z.leb_spec 0 i); [lia|reflexivity]|].
  destruct (Z_lt_le_dec i (zlen l)) as [H|H].
  - rewrite !aset_OK by (zl; lia). cbn. f_equal. apply (zn_ext (h v)); [zl; lia|]. intros j Hj. revert Hj. zl. intros Hj.
    rewrite zn_upd by (zl; lia). rewrite !(zn_map h v) by (zl; lia). rewrite zn_upd by lia. destruct (j =? i); reflexivity.
  - assert (K : forall X (m : list X) x, zlen m <= i -> aset m i x = UB).
    { intros X m x Hm. destruct (aset m i x) as [m'| | |] eqn:Q; try reflexivity; [apply aset_inv in Q; lia| |];
      unfold aset in Q; destruct ((0 <=? i) && (i <? zlen m)); discriminate. }
    rewrite !K by (zl; lia). reflexivity.
Qed.
Lemma map_repeat_zero {A B} (h : A -> B) z n : map h (repeat z n) = repeat (h z) n.
Proof. induction n; cbn; congruence. Qed.
