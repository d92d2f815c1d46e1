(** Polynomials and linear systems over R. *)
From Coq Require Import Reals ZArith Lia Lra List Bool.
From Verif.Base Require Import Imp Sums RealOps Loops.
From Verif.Polyfit Require Import PolySpec.
Import ListNotations.
Open Scope Z_scope.

(** *** Polynomials *)
Fixpoint peval (c : list R) (t : R) : R := match c with [] => 0%R | a :: l => (a + t * peval l t)%R end.

Lemma poly_peval c t : poly c t = peval c t.
Proof.
  unfold poly. induction c as [|a l IH]; [apply rsum_0; cbn; lia|].
  rewrite zlen_cons. pose proof (zlen_nonneg l). rewrite rsum_first by lia. cbn [peval]. rewrite <- IH. f_equal.
  - rewrite zn_cons. cbn [Z.eqb]. change (Z.to_nat 0) with 0%nat. rewrite pow_O. destruct (Z.ltb_spec 0 0); try lia; ring.
  - replace (zlen l + 1 - 1) with (zlen l) by lia. rewrite <- rsum_scal. apply rsum_ext. intros i Hi.
    replace (Z.to_nat (i + 1)) with (S (Z.to_nat i)) by lia. cbn [pow]. 
    replace (zn 0%R (a :: l) (i + 1)) with (zn 0%R l i); [ring|]. rewrite zn_cons.
    zcase; try lia. f_equal. lia.
Qed.

Fixpoint quo (a : R) (c : list R) : list R :=
  match c with [] => [] | _ :: l => match l with [] => [] | _ => peval l a :: quo a l end end.

Lemma quo_eval a c t : peval c t = (peval c a + (t - a) * peval (quo a c) t)%R.
Proof.
  induction c as [|b l IH]; [cbn; ring|]. destruct l as [|b' l']; [cbn; ring|].
  change (quo a (b :: b' :: l')) with (peval (b' :: l') a :: quo a (b' :: l')).
  set (l := b' :: l') in *. cbn [peval]. rewrite IH. ring.
Qed.
Lemma quo_length a c : length (quo a c) = pred (length c).
Proof.
  induction c as [|b l IH]; [reflexivity|]. destruct l as [|b' l']; [reflexivity|].
  change (quo a (b :: b' :: l')) with (peval (b' :: l') a :: quo a (b' :: l')). cbn [length] in *. lia.
Qed.
Lemma quo_zero a c : peval c a = 0%R -> Forall (fun v => v = 0%R) (quo a c) -> Forall (fun v => v = 0%R) c.
Proof.
  induction c as [|b l IH]; intros H F; [constructor|]. destruct l as [|b' l'].
  - cbn in H. constructor; [lra|constructor].
  - change (quo a (b :: b' :: l')) with (peval (b' :: l') a :: quo a (b' :: l')) in F.
    set (l := b' :: l') in *. inversion F as [|? ? F1 F2]; subst. change (b + a * peval l a = 0)%R in H. change (peval l a = 0)%R in F1. rewrite F1 in H.
    constructor; [lra|auto].
Qed.
Lemma peval_zero c t : Forall (fun v => v = 0%R) c -> peval c t = 0%R.
Proof. induction 1 as [|v c -> _ IH]; cbn; [reflexivity|rewrite IH; ring]. Qed.

(** A polynomial vanishing at as many points as it has coefficients is zero. *)
Lemma roots_zero l : forall c, NoDup l -> (length c <= length l)%nat -> (forall t, In t l -> peval c t = 0%R) -> Forall (fun v => v = 0%R) c.
Proof.
  induction l as [|a l IH]; intros c N L H.
  - destruct c; [constructor|cbn in L; lia].
  - inversion N as [|? ? Na N']; subst. apply (quo_zero a); [apply H; now left|].
    apply IH; auto.
    + rewrite quo_length. cbn [length] in L. lia.
    + intros t Ht. assert (E : peval c t = 0%R) by (apply H; now right). assert (Ea : peval c a = 0%R) by (apply H; now left).
      rewrite (quo_eval a), Ea in E. assert (t - a <> 0)%R.
      { intros Q. apply Na. replace a with t by lra. exact Ht. }
      apply Rmult_eq_reg_l with (t - a)%R; [lra|auto].
Qed.

(** The monic polynomial vanishing at given points. *)
Fixpoint mul1 (a carry : R) (p : list R) : list R :=
  match p with [] => [carry] | b :: l => (carry - a * b)%R :: mul1 a b l end.
Lemma mul1_eval a p : forall k t, peval (mul1 a k p) t = (k + (t - a) * peval p t)%R.
Proof. induction p as [|b l IH]; intros k t; cbn [mul1 peval]; [ring|]. rewrite IH. ring. Qed.
Lemma mul1_length a p : forall k, length (mul1 a k p) = S (length p).
Proof. induction p as [|b l IH]; intros k; cbn [mul1 length]; [reflexivity|]. now rewrite IH. Qed.
Lemma mul1_one a p : forall k, In 1%R p -> p <> [] -> last p 0%R = 1%R -> last (mul1 a k p) 0%R = 1%R.
Proof.
  induction p as [|b l IH]; intros k _ N Hl; [congruence|]. destruct l as [|b' l'].
  - cbn in *. auto.
  - change (last (mul1 a b (b' :: l')) 0%R = 1%R). apply IH; try discriminate.
    + clear - Hl. cbn [last] in Hl. change (In 1%R (b' :: l')). rewrite <- Hl. clear. revert b'.
      induction l' as [|c l IH]; intros b'; [now left|]. right. apply IH.
    + exact Hl.
Qed.
Fixpoint prodp (l : list R) : list R := match l with [] => [1%R] | a :: l => mul1 a 0 (prodp l) end.
Lemma prodp_length l : length (prodp l) = S (length l).
Proof. induction l as [|a l IH]; [reflexivity|]. cbn [prodp length]. now rewrite mul1_length, IH. Qed.
Lemma last_in (l : list R) d : l <> [] -> In (last l d) l.
Proof.
  induction l as [|a l IH]; [congruence|]. intros _. destruct l as [|b l]; [now left|]. right. apply IH. discriminate.
Qed.
Lemma prodp_last l : last (prodp l) 0%R = 1%R.
Proof.
  induction l as [|a l IH]; [reflexivity|]. cbn [prodp].
  assert (prodp l <> []) by (intros Q; pose proof (prodp_length l) as E; rewrite Q in E; discriminate).
  apply mul1_one; auto. rewrite <- IH. now apply last_in.
Qed.
Lemma prodp_eval l t : In t l -> peval (prodp l) t = 0%R.
Proof.
  induction l as [|a l IH]; [intros []|]. intros [->|H]; cbn [prodp]; rewrite mul1_eval; [ring|]. rewrite IH by auto. ring.
Qed.
Lemma peval_app c n t : peval (c ++ repeat 0%R n) t = peval c t.
Proof.
  induction c as [|a l IH]; cbn [app peval]; [|now rewrite IH].
  induction n as [|n IH]; cbn [repeat peval]; [reflexivity|rewrite IH; ring].
Qed.

(** Few abscissae: some nonzero polynomial vanishes at all of them. *)
Lemma not_distinct_poly n x : 0 <= n -> ~ distinct n x ->
  exists c, zlen c = n /\ (exists v, In v c /\ v <> 0%R) /\ forall t, In t x -> peval c t = 0%R.
Proof.
  intros Hn D. set (l := nodup Req_EM_T x).
  assert (S : zlen l < n).
  { destruct (Z.lt_ge_cases (zlen l) n) as [|G]; [assumption|]. exfalso. apply D.
    exists (firstn (Z.to_nat n) l). splits.
    - pose proof (NoDup_nodup Req_EM_T x) as N. fold l in N. rewrite <- (firstn_skipn (Z.to_nat n) l) in N.
      clear - N. revert N. generalize (firstn (Z.to_nat n) l) as p, (skipn (Z.to_nat n) l) as q.
      induction p as [|a p IH]; intros q N; [constructor|]. inversion N; subst. constructor; [|eapply IH; eauto].
      intros Q. apply H1. apply in_or_app. now left.
    - rewrite zlen_firstn. lia.
    - intros v Hv. apply (nodup_In Req_EM_T). fold l. rewrite <- (firstn_skipn (Z.to_nat n) l). apply in_or_app. now left. }
  exists (prodp l ++ repeat 0%R (Z.to_nat (n - 1 - zlen l))). splits.
  - unfold zlen in *. rewrite app_length, prodp_length, repeat_length. lia.
  - exists 1%R. split; [|lra]. apply in_or_app. left. rewrite <- (prodp_last l). apply last_in.
    intros Q. pose proof (prodp_length l) as E. rewrite Q in E. discriminate.
  - intros t Ht. rewrite peval_app. apply prodp_eval. unfold l. now apply nodup_In.
Qed.

Lemma distinct_dec n x : 0 <= n -> distinct n x \/ ~ distinct n x.
Proof.
  intros Hn. set (l := nodup Req_EM_T x). destruct (Z.lt_ge_cases (zlen l) n) as [G|G].
  - right. intros (m & N & L & I). assert (length m <= length l)%nat; [|unfold zlen in *; lia].
    apply NoDup_incl_length; auto. intros v Hv. unfold l. apply nodup_In. auto.
  - left. exists (firstn (Z.to_nat n) l). splits.
    + pose proof (NoDup_nodup Req_EM_T x) as N. fold l in N. rewrite <- (firstn_skipn (Z.to_nat n) l) in N.
      clear - N. revert N. generalize (firstn (Z.to_nat n) l) as p, (skipn (Z.to_nat n) l) as q.
      induction p as [|a p IH]; intros q N; [constructor|]. inversion N; subst. constructor; [|eapply IH; eauto].
      intros Q. apply H1. apply in_or_app. now left.
    + rewrite zlen_firstn. lia.
    + intros v Hv. apply (nodup_In Req_EM_T). fold l. rewrite <- (firstn_skipn (Z.to_nat n) l). apply in_or_app. now left.
Qed.

Lemma forall_zn (P : R -> Prop) c : Forall P c <-> forall i, 0 <= i < zlen c -> P (zn 0%R c i).
Proof.
  rewrite Forall_nth. split; intros H.
  - intros i Hi. unfold zn, zlen in *. destruct (Z.ltb_spec i 0); [lia|]. apply H. lia.
  - intros i d Hi. specialize (H (Z.of_nat i)). unfold zn, zlen in H. destruct (Z.ltb_spec (Z.of_nat i) 0); [lia|].
    rewrite Nat2Z.id in H. rewrite (nth_indep c d 0%R) by auto. apply H. lia.
Qed.

(** *** Linear systems *)
Definition lin (n : Z) (B : Z -> Z -> R) (x : Z -> R) (r : Z) : R := rsum n (fun c => B r c * x c)%R.
(** x solves B x = s w. *)
Definition solves (n : Z) (B : Z -> Z -> R) (w : Z -> R) (s : R) (x : Z -> R) : Prop :=
  forall r, 0 <= r < n -> lin n B x r = (s * w r)%R.
Definition singular (n : Z) (A : Z -> Z -> R) : Prop :=
  exists x, solves n A (fun _ => 0%R) 0 x /\ exists c, 0 <= c < n /\ x c <> 0%R.

Definition swapf {T} (p q : Z) (f : Z -> T) (r : Z) : T := if r =? p then f q else if r =? q then f p else f r.
Definition elim (q : Z) (B : Z -> Z -> R) (r c : Z) : R :=
  if r =? q then (B q c / B q q)%R else (B r c - B q c / B q q * B r q)%R.
Definition elimw (q : Z) (B : Z -> Z -> R) (w : Z -> R) (r : Z) : R :=
  if r =? q then (w q / B q q)%R else (w r - w q / B q q * B r q)%R.

Lemma solves_swap n p q B w s x : 0 <= p < n -> 0 <= q < n -> solves n B w s x <-> solves n (swapf p q B) (swapf p q w) s x.
Proof.
  intros Hp Hq. unfold solves, lin, swapf. split; intros H r Hr.
  - destruct (Z.eqb_spec r p) as [->|]; [auto|]. destruct (Z.eqb_spec r q) as [->|]; auto.
  - destruct (Z.eq_dec r p) as [->|].
    + specialize (H q Hq). destruct (Z.eqb_spec q p) as [->|]; auto. rewrite Z.eqb_refl in H. auto.
    + destruct (Z.eq_dec r q) as [->|].
      * specialize (H p Hp). rewrite Z.eqb_refl in H. auto.
      * specialize (H r Hr). destruct (Z.eqb_spec r p); [lia|]. destruct (Z.eqb_spec r q); [lia|]. auto.
Qed.

Lemma solves_elim n q B w s x : 0 <= q < n -> B q q <> 0%R -> solves n B w s x <-> solves n (elim q B) (elimw q B w) s x.
Proof.
  intros Hq Nz.
  assert (Lq : lin n (elim q B) x q = (lin n B x q / B q q)%R).
  { unfold lin, elim. rewrite Z.eqb_refl. unfold Rdiv at 2. rewrite Rmult_comm, <- rsum_scal. apply rsum_ext. intros c _. unfold Rdiv. ring. }
  assert (Lr : forall r, r <> q -> lin n (elim q B) x r = (lin n B x r - lin n B x q / B q q * B r q)%R).
  { intros r Hr. unfold lin, elim. destruct (Z.eqb_spec r q); [lia|].
    replace (rsum n (fun c => B q c * x c) / B q q * B r q)%R with (B r q / B q q * rsum n (fun c => B q c * x c))%R by (field; auto).
    rewrite <- rsum_scal, <- rsum_minus. apply rsum_ext. intros c _. unfold Rdiv. ring. }
  unfold solves, elimw. split; intros H r Hr.
  - destruct (Z.eqb_spec r q) as [->|N].
    + rewrite Lq, H by auto. unfold Rdiv. ring.
    + rewrite Lr, !H by auto. unfold Rdiv. ring.
  - assert (Eq : lin n B x q = (s * w q)%R).
    { specialize (H q Hq). rewrite Z.eqb_refl, Lq in H. apply Rmult_eq_reg_r with (/ B q q)%R; [|now apply Rinv_neq_0_compat].
      unfold Rdiv in H. rewrite H. ring. }
    destruct (Z.eq_dec r q) as [->|N]; [exact Eq|]. specialize (H r Hr). destruct (Z.eqb_spec r q); [lia|].
    rewrite Lr in H by auto. rewrite Eq in H. unfold Rdiv in H. lra.
Qed.

(** What the matrix with some columns already reduced stands for. *)
Definition virt (D : Z -> bool) (b : Z -> Z -> R) (r c : Z) : R :=
  if D c then (if r =? c then 1%R else 0%R) else b r c.

Lemma solves_ext n B B' w w' s x : (forall r c, 0 <= r < n -> 0 <= c < n -> B r c = B' r c) -> (forall r, 0 <= r < n -> w r = w' r) ->
  solves n B w s x <-> solves n B' w' s x.
Proof.
  intros H1 H2. unfold solves, lin. split; intros H r Hr; specialize (H r Hr); [rewrite <- H2 by auto|rewrite H2 by auto]; rewrite <- H;
  apply rsum_ext; intros c Hc; rewrite H1 by auto; reflexivity.
Qed.

(** One step of the elimination with pivot row p and column q. *)
Lemma virt_step n D b w p q (b' : Z -> Z -> R) (w' : Z -> R) s x :
  0 <= p < n -> 0 <= q < n -> D p = false -> D q = false -> b p q <> 0%R ->
  let b2 := swapf p q b in let w2 := swapf p q w in
  (forall r c, 0 <= r < n -> 0 <= c < n -> c <> q -> b' r c = elim q b2 r c) ->
  (forall r, 0 <= r < n -> w' r = elimw q b2 w2 r) ->
  solves n (virt D b) w s x <-> solves n (virt (fun c => D c || (c =? q)) b') w' s x.
Proof.
  intros Hp Hq Dp Dq Nz b2 w2 Hb Hw.
  assert (Nqq : b2 q q <> 0%R).
  { unfold b2, swapf. destruct (Z.eqb_spec q p) as [->|]; [auto|]. rewrite Z.eqb_refl. exact Nz. }
  assert (V2 : forall r c, swapf p q (virt D b) r c = virt D b2 r c).
  { intros r c. unfold b2, swapf. destruct (Z.eqb_spec r p) as [->|]; [|destruct (Z.eqb_spec r q) as [->|]]; unfold virt.
    - destruct (D c) eqn:Dc.
      + destruct (Z.eqb_spec q c), (Z.eqb_spec p c); try congruence; reflexivity.
      + now rewrite Z.eqb_refl.
    - destruct (D c) eqn:Dc.
      + destruct (Z.eqb_spec q c), (Z.eqb_spec p c); try congruence; reflexivity.
      + destruct (Z.eqb_spec q p); [congruence|]. now rewrite Z.eqb_refl.
    - destruct (D c); [reflexivity|]. destruct (Z.eqb_spec r p); [lia|]. destruct (Z.eqb_spec r q); [lia|]. reflexivity. }
  rewrite (solves_swap n p q) by auto.
  rewrite (solves_ext n _ (virt D b2) _ w2) by (intros; auto).
  assert (Vq : forall r, virt D b2 r q = b2 r q) by (intros r; unfold virt; now rewrite Dq).
  rewrite (solves_elim n q) by (rewrite ?Vq; auto).
  apply solves_ext.
  - intros r c Hr Hc. unfold elim. rewrite !Vq. unfold virt. destruct (D c) eqn:Dc.
    + cbn [orb]. assert (c <> q) by congruence. destruct (Z.eqb_spec q c); [congruence|].
      destruct (Z.eqb_spec r q) as [->|]; [destruct (Z.eqb_spec q c); [congruence|]; unfold Rdiv; ring|].
      unfold Rdiv. destruct (r =? c); ring.
    + cbn [orb]. destruct (Z.eqb_spec c q) as [->|Nc].
      * destruct (Z.eqb_spec r q) as [->|]; field; auto.
      * rewrite Hb by auto. reflexivity.
  - intros r Hr. rewrite Hw by auto. unfold elimw. now rewrite !Vq.
Qed.

(** No usable pivot is left. *)
Lemma virt_singular n D b c0 : 0 <= c0 < n -> D c0 = false ->
  (forall r c, 0 <= r < n -> 0 <= c < n -> D r = false -> D c = false -> b r c = 0%R) -> singular n (virt D b).
Proof.
  intros H0 D0 Z0.
  set (x := fun c => if D c then (- b c c0)%R else if c =? c0 then 1%R else 0%R).
  exists x. split.
  - intros r Hr. unfold lin. rewrite Rmult_0_l.
    rewrite (rsum_ext n _ (fun c => (if c =? r then (if D r then x r else 0) else 0) + (if c =? c0 then b r c0 else 0))%R).
    2:{ intros c Hc. unfold virt, x. destruct (D c) eqn:Dc.
        - destruct (Z.eqb_spec r c) as [<-|]; [rewrite Z.eqb_refl, Dc; destruct (Z.eqb_spec r c0); [congruence|lra]|].
          destruct (Z.eqb_spec c r); [lia|]. destruct (Z.eqb_spec c c0); [congruence|lra].
        - destruct (Z.eqb_spec c r) as [<-|]; rewrite ?Dc; destruct (Z.eqb_spec c c0) as [->|]; lra. }
    assert (S1 : forall j v, 0 <= j < n -> rsum n (fun c => if c =? j then v else 0%R) = v).
    { intros j v Hj. replace n with (j + (1 + (n - j - 1))) by lia. rewrite rsum_split by lia. rewrite rsum_split by lia.
      rewrite (rsum_ext j _ (fun _ => 0%R)) by (intros i Hi; zcase; lia || reflexivity).
      rewrite (rsum_ext (n - j - 1) _ (fun _ => 0%R)) by (intros i Hi; zcase; lia || reflexivity).
      rewrite (rsum_zero j), (rsum_zero (n - j - 1)) by auto.
      rewrite (rsum_S 0), rsum_0 by lia. replace (j + 0) with j by lia. rewrite Z.eqb_refl. lra. }
    rewrite rsum_plus. rewrite (S1 r), (S1 c0) by auto. unfold x. destruct (D r) eqn:Dr; [lra|]. rewrite Z0 by auto. lra.
  - exists c0. split; [auto|]. unfold x. rewrite D0, Z.eqb_refl. lra.
Qed.

(** *** Counting *)
Definition count (n : Z) (f : Z -> bool) : Z := fsum 0 Z.add n (fun k => if f k then 1 else 0).
Lemma count_0 f n : n <= 0 -> count n f = 0.
Proof. intros. now apply fsum_0. Qed.
Lemma count_S n f : 0 <= n -> count (n + 1) f = count n f + (if f n then 1 else 0).
Proof. intros. unfold count. now rewrite fsum_S. Qed.
Lemma count_ind (P : Z -> Prop) : P 0 -> (forall n, 0 <= n -> P n -> P (n + 1)) -> forall n, 0 <= n -> P n.
Proof. intros H0 HS. apply natlike_ind; auto. Qed.
Lemma count_ext n f g : (forall k, 0 <= k < n -> f k = g k) -> count n f = count n g.
Proof. intros H. apply fsum_ext. intros k Hk. now rewrite H. Qed.
Lemma count_none n f : 0 <= n -> (forall k, 0 <= k < n -> f k = false) -> count n f = 0.
Proof.
  intros Hn. revert n Hn. apply (count_ind (fun n => (forall k, 0 <= k < n -> f k = false) -> count n f = 0)).
  - intros _. apply count_0. lia.
  - intros n Hn IH H. rewrite count_S, IH by (auto; intros; apply H; lia). rewrite H by lia. lia.
Qed.
Lemma count_le n f : 0 <= n -> 0 <= count n f <= n.
Proof.
  intros Hn. revert n Hn. apply count_ind; [rewrite count_0; lia|]. intros n Hn IH. rewrite count_S by lia. destruct (f n); lia.
Qed.
Lemma count_all n f : 0 <= n -> count n f = n -> forall k, 0 <= k < n -> f k = true.
Proof.
  intros Hn. revert n Hn. apply (count_ind (fun n => count n f = n -> forall k, 0 <= k < n -> f k = true)).
  - intros; lia.
  - intros n Hn IH E k Hk. rewrite count_S in E by lia. pose proof (count_le n f Hn). destruct (f n) eqn:F; [|lia].
    destruct (Z.eq_dec k n) as [->|]; [auto|]. apply IH; lia.
Qed.
Lemma count_some n f : 0 <= n -> count n f < n -> exists k, 0 <= k < n /\ f k = false.
Proof.
  intros Hn. revert n Hn. apply (count_ind (fun n => count n f < n -> exists k, 0 <= k < n /\ f k = false)).
  - rewrite count_0; lia.
  - intros n Hn IH E. rewrite count_S in E by lia. destruct (f n) eqn:F.
    + destruct IH as (k & Hk & Fk); [lia|]. exists k. split; [lia|auto].
    + exists n. split; [lia|auto].
Qed.
Lemma count_add n f q : 0 <= q < n -> f q = false -> count n (fun c => f c || (c =? q)) = count n f + 1.
Proof.
  intros Hq Fq. assert (Hn : 0 <= n) by lia. revert n Hn Hq.
  apply (count_ind (fun n => 0 <= q < n -> count n (fun c => f c || (c =? q)) = count n f + 1)).
  - lia.
  - intros n Hn IH Hq. rewrite !count_S by lia. destruct (Z.eqb_spec n q) as [->|N].
    + rewrite orb_true_r, Fq. rewrite (count_ext q (fun c => f c || (c =? q)) f); [lia|].
      intros k Hk. destruct (Z.eqb_spec k q); [lia|]. apply orb_false_r.
    + rewrite orb_false_r. rewrite IH by lia. lia.
Qed.
