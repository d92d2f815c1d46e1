(** tqli computes an orthonormal basis of near-eigenvectors or gives up. *)
From Coq Require Import List ZArith Reals Lia Lra Bool Psatz.
From Verif.Base Require Import Imp Sums RealOps Loops Matrix Tables.
From Verif.Pca Require Import PcaModel PcaSpec PcaMath PcaQl.
Import ListNotations.
Open Scope Z_scope.

(** A result satisfying P, or the exit of erhand. *)
Definition ok_or_exit {A} (P : A -> Prop) (r : res A) : Prop :=
  match r with OK x => P x | Throw => True | _ => False end.

Lemma for_up_exit {St} (P : Z -> St -> Prop) lo hi body s : lo <= hi -> P lo s ->
  (forall i s, lo <= i < hi -> P i s -> ok_or_exit (P (i + 1)) (body i s)) -> ok_or_exit (P hi) (for_up lo hi body s).
Proof.
  intros H. revert s. remember (Z.to_nat (hi - lo)) as k eqn:Ek. revert lo H Ek. induction k as [|k IH]; intros lo H Ek s P0 B.
  - assert (hi = lo) by lia. subst. rewrite for_up_empty by lia. exact P0.
  - rewrite for_up_first by lia. pose proof (B lo s ltac:(lia) P0) as B0. destruct (body lo s) as [s'| | |]; cbn in B0 |- *; auto.
    apply IH; auto; try lia. intros; apply B; auto; lia.
Qed.

Lemma rotate_ok n i s c f : 0 <= i -> i + 1 < n ->
  rotate n i s c (tab2 n n f) = OK (tab2 n n (fun k a => rotc i s c (f k) a)).
Proof.
  intros H0 H1. unfold rotate.
  set (S := fun k => tab2 n n (fun x a => if x <? k then rotc i s c (f x) a else f x a)).
  replace (tab2 n n f) with (S 0) by (apply tab2_ext; intros x a Hx Ha; rewrite (proj2 (Z.ltb_ge x 0)) by lia; reflexivity).
  rewrite (for_up_path S); [|lia|].
  - f_equal. apply tab2_ext. intros x a Hx Ha. now rewrite (proj2 (Z.ltb_lt x n)) by lia.
  - intros k Hk. unfold S. rewrite !mget_tab by lia. cbn [bind]. rewrite mput_tab by lia. cbn [bind].
    rewrite mget_tab by lia. cbn [bind]. rewrite mput_tab by lia. f_equal. apply tab2_ext. intros x a Hx Ha. unfold set2.
    rewrite !Z.ltb_irrefl, ?Z.eqb_refl, (proj2 (Z.eqb_neq i (i + 1))) by lia. cbn [andb].
    destruct (Z.eqb_spec x k) as [->|N]; cbn [andb].
    + rewrite (proj2 (Z.ltb_lt k (k + 1))), Z.ltb_irrefl by lia. unfold rotc. destruct (a =? i); [reflexivity|]. destruct (a =? i + 1); reflexivity.
    + destruct (Z.ltb_spec x k), (Z.ltb_spec x (k + 1)); try lia; reflexivity.
Qed.

Section Tqli.
  Variable negligible : R -> R -> bool.
  Variable eps : R.
  Hypothesis neg_zero : forall dd, (0 <= dd)%R -> negligible 0 dd = true.
  Hypothesis neg_small : forall x dd, (0 <= x)%R -> (0 <= dd)%R -> negligible x dd = true -> (x <= eps * dd)%R.
  Hypothesis Heps : (0 <= eps)%R.

  Variable n : Z.
  Hypothesis Hn : 0 < n.
  Variable A : Z -> Z -> R.
  Variable F : R.
  Hypothesis HF : (0 <= F)%R.

  Lemma find_split_ok d e : forall fuel m0, m0 <= n - 1 -> 0 <= m0 -> (Z.to_nat (n - 1 - m0) < fuel)%nat ->
    exists m, find_split negligible fuel (ztab n d) (ztab n e) n m0 = OK m /\ m0 <= m <= n - 1 /\
      (forall j, m0 <= j < m -> negligible (Rabs (e j)) (Rabs (d j) + Rabs (d (j + 1)%Z)) = false) /\
      (m < n - 1 -> negligible (Rabs (e m)) (Rabs (d m) + Rabs (d (m + 1)%Z)) = true).
  Proof.
    induction fuel as [|fuel IH]; intros m0 H1 H0 Hf; [lia|]. cbn [find_split].
    destruct (Z.ltb_spec m0 (n - 1)) as [L|L].
    - rewrite !aget_tab by lia. cbn [bind].
      destruct (negligible (Rabs (e m0)) (Rabs (d m0) + Rabs (d (m0 + 1)%Z))) eqn:En.
      + exists m0. splits; auto; try lia.
      + destruct (IH (m0 + 1)) as (m & E & Hm & N & T); try lia. exists m. splits; auto; try lia.
        intros j Hj. destruct (Z.eq_dec j m0) as [->|Nj]; auto. apply N. lia.
    - exists m0. splits; auto; try lia.
  Qed.

  (** Couplings still present when eigenvalues 0..l-1 have been split off. *)
  Definition coup (l : Z) (e : Z -> R) (j : Z) : R := if (l <=? j) && (j <? n - 1) then e j else 0%R.
  (** The same inside a sweep, before the rotation of i and i+1. *)
  Definition coup_in (l m i : Z) (e : Z -> R) (c g : R) (j : Z) : R :=
    if j <? l then 0%R else if j <? i then e j else if j =? i then (c * e i)%R
    else if j =? i + 1 then (if i + 1 <? m then g else 0%R)
    else if (j =? m) || (n - 1 <=? j) then 0%R else e j.
  Definition bulge_in (l m i : Z) (e : Z -> R) (s : R) : R := if (l <=? i) && (i + 1 <? m) then (s * e i)%R else 0%R.

  Definition in_sweep (l m : Z) (e0 : Z -> R) (B : R) (i : Z) (w : sweep) : Prop :=
    exists s c p g d e z, w = Sweep s c p g (ztab n d) (ztab n e) (tab2 n n z) /\ s <> 0%R /\
      (forall j, j <= i -> e j = e0 j) /\
      form n A F (coup_in l m i e c g) (fun j => if j =? i + 1 then (d j - p)%R else d j) i (bulge_in l m i e s) z B.

  Ltac cases := unfold coup_in, coup, set1; repeat match goal with
    | |- context[?a <? ?b] => destruct (Z.ltb_spec a b); try lia
    | |- context[?a <=? ?b] => destruct (Z.leb_spec a b); try lia
    | |- context[?a =? ?b] => destruct (Z.eqb_spec a b); try lia
    end; cbn [andb orb].

  Lemma sweep_step_ok l m e0 B i w : 0 <= l -> l <= i -> i < m -> m <= n - 1 -> (forall j, l <= j < m -> e0 j <> 0%R) ->
    in_sweep l m e0 B i w -> exists w', sweep_step n i w = OK w' /\ in_sweep l m e0 B (i - 1) w'.
  Proof.
    intros Hl Hi Hm Hmn N0 (s & c & p & g & d & e & z & -> & Ns & Ee & Fo). unfold sweep_step. cbn [w_s w_c w_p w_g w_d w_e w_z].
    rewrite aget_tab by lia. cbn [bind].
    assert (Nf : (s * e i)%R <> 0%R). { apply Rmult_integral_contrapositive_currified; auto. rewrite Ee by lia. apply N0. lia. }
    rewrite (proj2 (Reqb_false _ _) Nf). cbn [andb].
    pose proof (givens_ok (s * e i) g (or_introl Nf)) as G. destruct (givens (s * e i) g) as ((s', c'), v).
    destruct G as (U & V & Cc & Ns'). specialize (Ns' Nf).
    rewrite aset_tab by lia. cbn [bind]. rewrite !aget_tab by lia. cbn [bind]. rewrite aset_tab by lia. cbn [bind].
    rewrite rotate_ok by lia. cbn [bind]. eexists. split; [reflexivity|].
    set (r := ((d i - (d (i + 1)%Z - p)) * s' + 2 * c' * (c * e i))%R).
    exists s', c', (s' * r)%R, (c' * r - c * e i)%R. do 3 eexists. split; [reflexivity|]. split; [exact Ns'|]. split.
    - intros j Hj. unfold set1. rewrite (proj2 (Z.eqb_neq j (i + 1))) by lia. apply Ee. lia.
    - refine (form_ext _ _ _ _ _ _ _ _ (i - 1) _ _ _ _ (form_rot n A F _ _ i _ z B s' c'
        (coup_in l m (i - 1) (set1 e (i + 1) v) c' (c' * r - c * e i))
        (fun j => if j =? i - 1 + 1 then (set1 d (i + 1) (d (i + 1)%Z - p + s' * r) j - s' * r)%R else set1 d (i + 1) (d (i + 1)%Z - p + s' * r)%R j)
        Fo ltac:(lia) ltac:(lia) U _ _ _ _ _ _ _ _) _ _ _).
      + unfold bulge_in. cases; try (rewrite Rmult_0_r; ring); try lra.
      + intros a N1 N2. cases; reflexivity.
      + cases; unfold r; try ring.
      + cases; unfold r; try ring.
      + intros a N1 N2 N3. cases; auto.
      + unfold bulge_in. cases; try lra.
      + cases; unfold r; try ring.
      + cases; try ring.
      + intros; reflexivity.
      + intros; reflexivity.
      + right. split; [reflexivity|]. unfold bulge_in. cases; try ring.
  Qed.

  Lemma not_negligible x dd : (0 <= dd)%R -> negligible (Rabs x) dd = false -> x <> 0%R.
  Proof. intros H E ->. rewrite Rabs_R0, neg_zero in E by auto. discriminate. Qed.
  Lemma dd_pos d j : (0 <= Rabs (d j) + Rabs (d (j + 1)%Z))%R.
  Proof. pose proof (Rabs_pos (d j)). pose proof (Rabs_pos (d (j + 1)%Z)). lra. Qed.

  Lemma ql_sweep_ok l m d e z B : 0 <= l -> l < m -> m <= n - 1 -> (forall j, l <= j < m -> e j <> 0%R) ->
    form n A F (set1 (coup l e) m 0%R) d 0 0 z B ->
    exists d' e' z', ql_sweep n l m (ztab n d) (ztab n e) (tab2 n n z) = OK (ztab n d', ztab n e', tab2 n n z') /\
      form n A F (coup l e') d' 0 0 z' B.
  Proof.
    intros Hl Hm Hmn N0 Fo. unfold ql_sweep. rewrite !aget_tab by lia. cbn [bind].
    rewrite (proj2 (Reqb_false _ _) (N0 l ltac:(lia))). cbn [bind].
    match goal with |- context[Sweep 1 1 0 ?g _ _ _] => set (g0 := g) end.
    destruct (for_down_inv (in_sweep l m e B) (m - 1) l (sweep_step n) (Sweep 1 1 0 g0 (ztab n d) (ztab n e) (tab2 n n z))) as (w & E & I).
    - lia.
    - exists 1%R, 1%R, 0%R, g0, d, e, z. splits; auto; try lra.
      refine (form_ext _ _ _ _ _ _ _ 0 _ _ _ _ _ Fo _ _ _).
      + intros a Ha. cases; try subst a; try ring.
      + intros a Ha. cases; try subst a; try ring.
      + left. split; [reflexivity|]. unfold bulge_in. cases; reflexivity.
    - intros i w Hi I. apply sweep_step_ok; auto; lia.
    - rewrite E. cbn [bind]. destruct I as (s & c & p & g & d' & e' & z' & -> & Ns & Ee & Fo'). cbn [w_s w_c w_p w_g w_d w_e w_z].
      rewrite aget_tab by lia. cbn [bind]. rewrite aset_tab by lia. cbn [bind]. rewrite aset_tab by lia. cbn [bind].
      rewrite aset_tab by lia. cbn [bind]. do 3 eexists. split; [reflexivity|].
      refine (form_ext _ _ _ _ _ _ _ _ _ _ _ _ _ Fo' _ _ _).
      + intros a Ha. cases; reflexivity.
      + intros a Ha. replace (l - 1 + 1) with l by lia. cases; try subst a; auto.
      + left. split; [|reflexivity]. unfold bulge_in. cases; reflexivity.
  Qed.

  Lemma coup_low l e : 0 <= l -> coup l e (-1) = 0%R.
  Proof. intros. cases; reflexivity. Qed.
  Lemma coup_high l e : coup l e (n - 1) = 0%R.
  Proof. cases; reflexivity. Qed.

  (** Dropping the negligible coupling at the split. *)
  Lemma split_ok l m d e z B : 0 <= l -> l <= m <= n - 1 ->
    (m < n - 1 -> negligible (Rabs (e m)) (Rabs (d m) + Rabs (d (m + 1)%Z)) = true) ->
    form n A F (coup l e) d 0 0 z B -> form n A F (set1 (coup l e) m 0%R) d 0 0 z (B + 2 * eps * F).
  Proof.
    intros Hl Hm N Fo. assert (P : (0 <= 2 * eps * F)%R) by nra.
    assert (W : forall C B', (B' <= B + 2 * eps * F)%R -> form n A F C d 0 0 z B' -> form n A F C d 0 0 z (B + 2 * eps * F)).
    { intros C B' L (O & Er & E1 & E2 & E3). split; auto. exists Er. splits; auto. lra. }
    destruct (Z.eq_dec m (n - 1)) as [->|Nm].
    - apply (W _ B); [lra|]. refine (form_ext _ _ _ _ _ _ _ _ _ _ _ _ _ Fo _ _ _); auto. intros a Ha. cases; reflexivity.
    - pose proof (form_diag n A F HF (coup l e) d 0 z B m Fo (coup_low l e Hl) (coup_high l e) ltac:(lia) ltac:(lia)) as D.
      pose proof (form_neglect n A F (coup l e) d 0 z B m Fo (coup_low l e Hl) (coup_high l e) ltac:(lia) ltac:(lia)) as G.
      eapply W; [|exact G]. apply Rplus_le_compat_l.
      replace (coup l e m) with (e m) by (cases; reflexivity).
      pose proof (neg_small _ _ (Rabs_pos (e m)) (dd_pos d m) (N ltac:(lia))) as S.
      assert (Q : (0 <= sqrt 2)%R) by apply sqrt_pos. assert (Q2 : (sqrt 2 * sqrt 2 = 2)%R) by (apply sqrt_sqrt; lra).
      apply Rle_trans with (sqrt 2 * (eps * (sqrt 2 * F)))%R.
      + apply Rmult_le_compat_l; auto. eapply Rle_trans; [exact S|]. apply Rmult_le_compat_l; auto.
      + apply Req_le. transitivity ((sqrt 2 * sqrt 2) * (eps * F))%R; [ring|rewrite Q2; ring].
  Qed.

  Lemma ql_iterate_ok l : 0 <= l < n -> forall todo d e z B, form n A F (coup l e) d 0 0 z B ->
    ok_or_exit (fun '(d', e', z') => exists fd fe fz, d' = ztab n fd /\ e' = ztab n fe /\ z' = tab2 n n fz /\
      form n A F (coup (l + 1) fe) fd 0 0 fz (B + INR (S todo) * (2 * eps * F)))
      (ql_iterate negligible todo n l (ztab n d) (ztab n e) (tab2 n n z)).
  Proof.
    intros Hl. assert (P : (0 <= 2 * eps * F)%R) by nra.
    assert (W : forall C d z B B', (B' <= B)%R -> form n A F C d 0 0 z B' -> form n A F C d 0 0 z B).
    { intros C d z B B' L (O & Er & E1 & E2 & E3). split; auto. exists Er. splits; auto. lra. }
    assert (K : forall k, (2 * eps * F <= INR (S k) * (2 * eps * F))%R) by (intros k; rewrite S_INR; pose proof (pos_INR k); nra).
    induction todo as [|todo IH]; intros d e z B Fo;
      (destruct (find_split_ok d e (Z.to_nat (n - l)) l ltac:(lia) ltac:(lia) ltac:(lia)) as (m & E & Hm & Nn & Ny));
      cbn [ql_iterate]; rewrite E; cbn [bind]; pose proof (split_ok l m d e z B ltac:(lia) Hm Ny Fo) as Sp;
      (destruct (Z.eqb_spec m l) as [->|Nm]; [cbn [ok_or_exit]; exists d, e, z; splits; auto;
        (eapply W; [|refine (form_ext _ _ _ _ _ _ _ _ _ _ _ _ _ Sp _ _ _); auto; intros a Ha; cases; reflexivity]);
        apply Rplus_le_compat_l, K|]).
    - exact I.
    - destruct (ql_sweep_ok l m d e z _ ltac:(lia) ltac:(lia) ltac:(lia)
        ltac:(intros j Hj; eapply not_negligible; [apply (dd_pos d)|apply Nn; auto]) Sp) as (d' & e' & z' & Es & Fo').
      rewrite Es. cbn [bind]. specialize (IH d' e' z' _ Fo').
      destruct (ql_iterate negligible todo n l (ztab n d') (ztab n e') (tab2 n n z')) as [((d2, e2), z2)| | |]; cbn [ok_or_exit] in IH |- *; auto.
      destruct IH as (fd & fe & fz & -> & -> & -> & Fo2). exists fd, fe, fz. splits; auto. eapply W; [|exact Fo2].
      rewrite (S_INR (S todo)). lra.
  Qed.

  Lemma tqli_ok d e z B : form n A F (coup 0 (fun j => e (j + 1)%Z)) d 0 0 z B ->
    ok_or_exit (fun '(d', e', z') => exists fd fz, d' = ztab n fd /\ zlen e' = n /\ z' = tab2 n n fz /\
      eigenbasis n A fz fd (B + 62 * IZR n * eps * F))
      (tqli negligible (ztab n d) (ztab n e) n (tab2 n n z)).
  Proof.
    intros Fo. unfold tqli.
    assert (E1 : for_up 1 n (fun i e => v <- aget e i ;; aset e (i - 1) v) (ztab n e) = OK (ztab n (fun j => if j <? n - 1 then e (j + 1)%Z else e j))).
    { set (S := fun i => ztab n (fun j => if j <? i - 1 then e (j + 1)%Z else e j)).
      replace (ztab n e) with (S 1) by (apply ztab_ext; intros j Hj; rewrite (proj2 (Z.ltb_ge j (1 - 1))) by lia; reflexivity).
      apply (for_up_path S); [lia|]. intros i Hi. unfold S. rewrite aget_tab by lia. cbn [bind]. rewrite aset_tab by lia. f_equal.
      apply ztab_ext. intros j Hj. unfold set1. rewrite (proj2 (Z.ltb_ge i (i - 1))) by lia.
      destruct (Z.eqb_spec j (i - 1)), (Z.ltb_spec j (i + 1 - 1)), (Z.ltb_spec j (i - 1)); try lia; auto. f_equal. lia. }
    rewrite E1. cbn [bind]. rewrite aset_tab by lia. cbn [bind].
    set (e1 := set1 (fun j => if j <? n - 1 then e (j + 1)%Z else e j) (n - 1) 0%R).
    pose proof (for_up_exit (fun l '(d', e', z') => exists fd fe fz, d' = ztab n fd /\ e' = ztab n fe /\ z' = tab2 n n fz /\
      form n A F (coup l fe) fd 0 0 fz (B + IZR l * (62 * eps * F))) 0 n
      (fun l '(d, e, z) => ql_iterate negligible 30 n l d e z) (ztab n d, ztab n e1, tab2 n n z)) as Lp.
    match type of Lp with ?a -> ?b -> ?c -> _ => assert (H1 : a) by lia; assert (H2 : b); [|assert (H3 : c); [|specialize (Lp H1 H2 H3)]] end.
    - exists d, e1, z. splits; auto. rewrite Rmult_0_l, Rplus_0_r.
      refine (form_ext _ _ _ _ _ _ _ _ _ _ _ _ _ Fo _ _ _); auto. intros a Ha. unfold e1. cases; reflexivity.
    - intros l ((d', e'), z') Hl (fd & fe & fz & -> & -> & -> & Fl). pose proof (ql_iterate_ok l Hl 30 _ _ _ _ Fl) as Q.
      destruct (ql_iterate negligible 30 n l (ztab n fd) (ztab n fe) (tab2 n n fz)) as [((d2, e2), z2)| | |]; cbn [ok_or_exit] in *; auto.
      destruct Q as (fd2 & fe2 & fz2 & -> & -> & -> & Fo2). exists fd2, fe2, fz2. splits; auto.
      replace (INR 31) with 31%R in Fo2 by (rewrite INR_IZR_INZ; reflexivity).
      rewrite plus_IZR. replace (B + (IZR l + 1) * (62 * eps * F))%R with (B + IZR l * (62 * eps * F) + 31 * (2 * eps * F))%R by ring. exact Fo2.
    - destruct (for_up 0 n _ _) as [((d', e'), z')| | |]; cbn [ok_or_exit] in *; auto.
      destruct Lp as (fd & fe & fz & -> & -> & -> & O & Er & F1 & F2 & F3). exists fd, fz. splits; auto; [zl; lia|].
      split; auto. replace (B + 62 * IZR n * eps * F)%R with (B + IZR n * (62 * eps * F))%R by ring.
      eapply Rle_trans; [|exact F1]. apply Req_le, frob_ext. intros k a Hk Ha.
      specialize (F2 k a Hk Ha). unfold image in F2.
      assert (T : (tri_row (coup n fe) fd (fz k) a + bulge_row 0 0 (fz k) a)%R = (fd a * fz k a)%R).
      { unfold tri_row, bulge_row. replace (coup n fe (a - 1)) with 0%R by (cases; reflexivity).
        replace (coup n fe a) with 0%R by (cases; reflexivity).
        repeat match goal with |- context[if ?b then _ else _] => destruct b end; ring. }
      rewrite T in F2. lra.
  Qed.
End Tqli.
