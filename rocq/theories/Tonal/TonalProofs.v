(** Proofs about the tonal centroid and the change detection function. *)
From Coq Require Import List ZArith Reals Lia Lra Bool.
From Verif.Base Require Import Imp Sums RealOps Loops Tables.
From Verif.Maths Require Import RealSpec.
From Verif.Onset Require Import DetProofs.
From Verif.Tonal Require Import TonalModel TonalSpec.
Import ListNotations.
Open Scope Z_scope.

Lemma repeat_tab {A} (x : A) n : 0 <= n -> repeat x (Z.to_nat n) = ztab n (fun _ => x).
Proof.
  intros H. apply (zn_ext x); [rewrite zlen_repeat; zl; lia|]. intros i Hi. rewrite zlen_repeat in Hi.
  rewrite zn_repeat, zn_ztab by lia. reflexivity.
Qed.
Lemma tcs_new_tab : tcs_new = ztab 6 (fun _ => 0%R).
Proof. reflexivity. Qed.

Lemma fill_ok {A} n (f g : Z -> A) : 0 <= n -> for_up 0 n (fun i s => aset s i (f i)) (ztab n g) = OK (ztab n f).
Proof.
  intros H. pose (S := fun i => ztab n (fun k => if k <? i then f k else g k)).
  replace (ztab n f) with (S n) by (apply ztab_ext; intros; zcase; auto).
  replace (ztab n g) with (S 0) by (apply ztab_ext; intros; zcase; auto).
  apply (for_up_path S 0 n); [lia|]. intros i Hi. unfold S. tabs. f_equal. same_tab.
Qed.

Lemma basis_ok f : basis_row f = OK (ztab 12 f).
Proof. unfold basis_row. change (repeat 0%R 12) with (ztab 12 (fun _ => 0%R)). now apply fill_ok. Qed.

Definition coef (i p : Z) : R :=
  (if i =? 0 then sin ((7.0 / 6.0) * IZR p * PI) else if i =? 1 then cos ((7.0 / 6.0) * IZR p * PI)
   else if i =? 2 then 0.6 * sin ((2.0 / 3.0) * IZR p * PI) else if i =? 3 then 0.6 * cos ((2.0 / 3.0) * IZR p * PI)
   else if i =? 4 then 1.1 * sin ((3.0 / 2.0) * IZR p * PI) else 1.1 * cos ((3.0 / 2.0) * IZR p * PI))%R.

Lemma tonal_new_ok : tonal_new = OK (ztab 6 (fun i => ztab 12 (coef i))).
Proof. unfold tonal_new. rewrite !basis_ok. cbn [bind]. reflexivity. Qed.

Lemma transform_ok c : zlen c = 12 ->
  transform2TCS (ztab 6 (fun i => ztab 12 (coef i))) c = OK (ztab 6 (fun i => rsum 12 (fun p => coef i p * zn 0 c p)))%R.
Proof.
  intros L. unfold transform2TCS. rewrite tcs_new_tab. set (e := fun i p => (coef i p * zn 0 c p)%R).
  replace (ztab 6 (fun _ : Z => 0%R)) with (ztab 6 (fun k => if k <? 0 then rsum 12 (e k) else 0%R))
    by (apply ztab_ext; intros; zcase; auto).
  replace (OK (ztab 6 _)) with (OK (ztab 6 (fun k => if k <? 6 then rsum 12 (e k) else 0%R)))
    by (f_equal; apply ztab_ext; intros; zcase; auto).
  apply (for_up_path (fun i => ztab 6 (fun k => if k <? i then rsum 12 (e k) else 0%R)) 0 6); [lia|].
  intros i Hi.
  replace (ztab 6 (fun k => if k <? i then _ else _))
    with (ztab 6 (fun k => if k <? i then rsum 12 (e k) else if k =? i then rsum 0 (e i) else 0%R)).
  2:{ apply ztab_ext; intros; zcase; auto. }
  replace (OK _) with (OK (ztab 6 (fun k => if k <? i then rsum 12 (e k) else if k =? i then rsum 12 (e i) else 0%R))).
  2:{ f_equal. apply ztab_ext; intros; zcase; subst; auto; lia. }
  apply (for_up_path (fun p => ztab 6 (fun k => if k <? i then rsum 12 (e k) else if k =? i then rsum p (e i) else 0%R)) 0 12); [lia|].
  intros p Hp. tabs. rewrite (aget_OK 0%R c) by lia. cbn [bind]. tabs. f_equal.
  destruct (Z.ltb_spec i i); [lia|]. rewrite Z.eqb_refl. same_tab. rewrite rsum_S by lia. reflexivity.
Qed.

Lemma lit6 : (0.6 = 6 / 10)%R. Proof. lra. Qed.
Lemma lit11 : (1.1 = 11 / 10)%R. Proof. lra. Qed.

Lemma coef_point c r : 0 <= r < 3 -> zlen c = 12 ->
  point (ztab 6 (fun i => rsum 12 (fun p => coef i p * zn 0 c p)%R)) r = on_circle r c.
Proof.
  intros Hr L. unfold point, on_circle. rewrite !zn_ztab by lia.
  rewrite <- !rsum_scal. assert (C : r = 0 \/ r = 1 \/ r = 2) by lia.
  destruct C as [->|[->| ->]]; f_equal; apply rsum_ext; intros p Hp; unfold coef, semitone, radius; simpl Z.eqb; cbv iota;
  match goal with
  | |- context [sin ?x] => match goal with |- _ = (_ * (_ * sin ?y))%R => replace x with y by lra end
  | |- context [cos ?x] => match goal with |- _ = (_ * (_ * cos ?y))%R => replace x with y by lra end
  end; lra.
Qed.

Theorem tcs_values c : zlen c = 12 ->
  exists b v, tonal_new = OK b /\ transform2TCS b c = OK v /\ zlen v = 6 /\
    forall r, 0 <= r < 3 -> point v r = on_circle r c.
Proof.
  intros L. exists (ztab 6 (fun i => ztab 12 (coef i))). eexists. split; [apply tonal_new_ok|].
  split; [now apply transform_ok|]. split; [reflexivity|]. intros r Hr. now apply coef_point.
Qed.

Lemma rsum3 f : rsum 3 f = (f 0%Z + f 1%Z + f 2%Z)%R.
Proof. rewrite (rsum_S 2), (rsum_S 1), (rsum_S 0), rsum_0 by lia. ring. Qed.
Lemma rsum6 f : rsum 6 f = (f 0%Z + f 1%Z + f 2%Z + f 3%Z + f 4%Z + f 5%Z)%R.
Proof. rewrite (rsum_S 5), (rsum_S 4), (rsum_S 3), rsum3 by lia. ring. Qed.

(** *** Transposition *)
Lemma semitone_octave r q x : 0 <= r < 3 -> same_angle (x + IZR (12 * q) * semitone r) x.
Proof.
  intros Hr. assert (C : r = 0 \/ r = 1 \/ r = 2) by lia.
  destruct C as [->|[->| ->]]; unfold semitone; [exists (7 * q)|exists (4 * q)|exists (9 * q)]; rewrite !mult_IZR; field.
Qed.

Lemma circle_sum f r k c : 0 <= r < 3 -> (forall x y, same_angle x y -> f x = f y) ->
  rsum 12 (fun p => zn 0 (transposed k c) p * f (IZR p * semitone r))%R
  = rsum 12 (fun p => zn 0 c p * f (IZR p * semitone r + IZR k * semitone r))%R.
Proof.
  intros Hr P. symmetry. rewrite <- (rsum_rot 12 (- k)) by lia. apply rsum_ext. intros p Hp.
  unfold transposed. rewrite zn_ztab by lia. replace (p + - k) with (p - k) by lia.
  f_equal. apply P. pose proof (Z.div_mod (p - k) 12 ltac:(lia)) as D.
  set (q := (p - k) / 12) in *. set (m := (p - k) mod 12) in *.
  destruct (semitone_octave r (- q) (IZR p * semitone r) Hr) as [z E]. exists z. rewrite <- E.
  rewrite <- !Rmult_plus_distr_r, <- !plus_IZR. do 2 f_equal. lia.
Qed.

Lemma zlen_transposed k c : zlen (transposed k c) = 12.
Proof. reflexivity. Qed.

Theorem transposed_circle k c r : 0 <= r < 3 ->
  on_circle r (transposed k c) = turned (IZR k * semitone r) (on_circle r c).
Proof.
  intros Hr. unfold on_circle, turned. cbn [fst snd].
  rewrite !(circle_sum _ r k c Hr) by (intros x y S; destruct (cos_same x y S); auto).
  set (t := (IZR k * semitone r)%R).
  rewrite (rsum_ext 12 _ (fun p => cos t * (zn 0 c p * sin (IZR p * semitone r)) + sin t * (zn 0 c p * cos (IZR p * semitone r)))%R)
    by (intros; rewrite sin_plus; ring).
  rewrite (rsum_ext 12 (fun p => zn 0 c p * cos _)%R (fun p => cos t * (zn 0 c p * cos (IZR p * semitone r)) - sin t * (zn 0 c p * sin (IZR p * semitone r)))%R)
    by (intros; rewrite cos_plus; ring).
  rewrite rsum_plus, rsum_minus, !rsum_scal. f_equal; ring.
Qed.

Theorem transposed_tcs k c b : zlen c = 12 -> tonal_new = OK b ->
  exists v v', transform2TCS b c = OK v /\ transform2TCS b (transposed k c) = OK v' /\
    (forall r, 0 <= r < 3 -> point v' r = turned (IZR k * semitone r) (point v r)) /\ norm2 v' = norm2 v.
Proof.
  intros L B. destruct (tcs_values c L) as (b1 & v & B1 & V & Lv & P). rewrite B in B1. injection B1 as <-.
  destruct (tcs_values (transposed k c) (zlen_transposed k c)) as (b2 & v' & B2 & V' & Lv' & P'). rewrite B in B2. injection B2 as <-.
  exists v, v'. splits; auto.
  - intros r Hr. rewrite P', P, transposed_circle; auto.
  - assert (Q : forall u, rsum 6 (fun i => zn 0 u i * zn 0 u i)%R =
      (rsum 3 (fun r => fst (point u r) * fst (point u r) + snd (point u r) * snd (point u r)))%R).
    { intros u. rewrite rsum3, rsum6. unfold point. cbn [fst snd]. simpl Z.mul. simpl Z.add. ring. }
    unfold norm2. rewrite !Q. f_equal. apply rsum_ext. intros r Hr.
    rewrite P', P, transposed_circle by auto. unfold turned. cbn [fst snd].
    pose proof (sin2_cos2 (IZR k * semitone r)) as SC. unfold Rsqr in SC.
    set (s := sin _) in *. set (d := cos _) in *. set (x := fst _). set (y := snd _). nra.
Qed.

(** A fifth, a major third and a minor third are single steps round their circles. *)
Theorem circle_steps c :
  on_circle 0 (transposed 7 c) = turned (2 * PI / 12) (on_circle 0 c) /\
  on_circle 1 (transposed 4 c) = turned (2 * PI / 3) (on_circle 1 c) /\
  on_circle 2 (transposed 3 c) = turned (2 * PI / 4) (on_circle 2 c) /\
  on_circle 1 (transposed 3 c) = on_circle 1 c /\ on_circle 2 (transposed 4 c) = on_circle 2 c.
Proof.
  assert (T : forall a b p, same_angle a b -> turned a p = turned b p).
  { intros a b p S. unfold turned. destruct (cos_same a b S) as [-> ->]. reflexivity. }
  assert (T0 : forall p, turned 0 p = p).
  { intros [x y]. unfold turned. rewrite cos_0, sin_0. cbn. f_equal; ring. }
  rewrite !transposed_circle by lia. unfold semitone. splits.
  - apply T. exists 4. field.
  - apply T. exists 1. field.
  - apply T. exists 2. field.
  - rewrite <- (T0 (on_circle 1 c)) at 2. apply T. exists 1. field.
  - rewrite <- (T0 (on_circle 2 c)) at 2. apply T. exists 3. field.
Qed.

(** *** Bounds *)
Lemma circle_bound c r : 0 <= r < 3 ->
  (fst (on_circle r c) * fst (on_circle r c) + snd (on_circle r c) * snd (on_circle r c)
   <= (radius r * norm1 c) * (radius r * norm1 c))%R.
Proof.
  intros Hr. unfold on_circle, norm1. cbn [fst snd].
  set (S := rsum 12 (fun p => zn 0 c p * sin _)%R). set (C := rsum 12 (fun p => zn 0 c p * cos _)%R). set (N := rsum 12 _).
  assert (H : (S * S + C * C <= N * N)%R).
  { unfold S, C, N. rewrite <- !rsum_scal. rewrite <- rsum_plus. apply rsum_le. intros p Hp.
    rewrite (Rmult_comm _ (zn 0%R c p * sin _)), (Rmult_comm _ (zn 0%R c p * cos _)), (Rmult_comm _ (Rabs _)).
    rewrite <- !rsum_scal, <- rsum_plus. apply rsum_le. intros q Hq.
    replace (_ + _)%R with ((zn 0 c p * zn 0 c q) * cos (IZR p * semitone r - IZR q * semitone r))%R by (rewrite cos_minus; ring).
    rewrite <- Rabs_mult. eapply Rle_trans; [apply Rle_abs|]. rewrite Rabs_mult.
    pose proof (COS_bound (IZR p * semitone r - IZR q * semitone r)) as B.
    assert (Rabs (cos (IZR p * semitone r - IZR q * semitone r)) <= 1)%R by (apply Rabs_le; lra).
    pose proof (Rabs_pos (zn 0%R c p * zn 0%R c q)). nra. }
  set (k := radius r). pose proof (Rle_0_sqr k) as K. unfold Rsqr in K. nra.
Qed.

Theorem tcs_bounds c b v : zlen c = 12 -> tonal_new = OK b -> transform2TCS b c = OK v ->
  (forall r, 0 <= r < 3 -> (sqrt (fst (point v r) * fst (point v r) + snd (point v r) * snd (point v r)) <= radius r * norm1 c)%R) /\
  (norm2 v <= sqrt 2.57 * norm1 c)%R.
Proof.
  intros L B V. destruct (tcs_values c L) as (b1 & v1 & B1 & V1 & Lv & P). rewrite B in B1. injection B1 as <-.
  rewrite V in V1. injection V1 as <-.
  assert (N : (0 <= norm1 c)%R) by (apply rsum_nonneg; intros; apply Rabs_pos).
  assert (Rp : forall r, 0 <= r < 3 -> (0 <= radius r)%R).
  { intros r Hr. assert (C : r = 0 \/ r = 1 \/ r = 2) by lia. destruct C as [->|[->| ->]]; unfold radius; lra. }
  split.
  - intros r Hr. rewrite P by auto. rewrite <- (sqrt_square (radius r * norm1 c)) by (apply Rmult_le_pos; auto).
    apply sqrt_le_1_alt, circle_bound; auto.
  - rewrite <- (sqrt_square (norm1 c)) by auto. rewrite <- sqrt_mult_alt by lra. apply sqrt_le_1_alt.
    replace (rsum 6 _) with (rsum 3 (fun r => fst (point v r) * fst (point v r) + snd (point v r) * snd (point v r))%R)
      by (rewrite rsum3, rsum6; unfold point; cbn [fst snd]; simpl Z.mul; simpl Z.add; ring).
    apply Rle_trans with (rsum 3 (fun r => (radius r * norm1 c) * (radius r * norm1 c))%R).
    + apply rsum_le. intros r Hr. rewrite P by auto. apply circle_bound; auto.
    + rewrite rsum3. unfold radius. lra.
Qed.

(** *** normalizeL1 and magnitude *)
Lemma magnitude_ok v : zlen v = 6 -> magnitude v = OK (norm2 v).
Proof.
  intros L. unfold magnitude, norm2.
  rewrite (for_up_path (fun i => rsum i (fun k => zn 0 v k * zn 0 v k)%R) 0 6); [reflexivity|lia|].
  intros i Hi. rewrite (aget_OK 0%R) by lia. cbn [bind]. rewrite rsum_S by lia. f_equal. ring.
Qed.

Lemma normalize_ok c : zlen c = 12 ->
  normalizeL1 c = OK (ztab 12 (fun p => if Rltb 0.0000001 (norm1 c) then zn 0 c p / norm1 c else 0))%R.
Proof.
  intros L. unfold normalizeL1.
  rewrite (for_up_path (fun i => rsum i (fun k => Rabs (zn 0 c k))%R) 0 12); [|lia|].
  2:{ intros i Hi. rewrite (aget_OK 0%R) by lia. cbn [bind]. now rewrite rsum_S by lia. }
  cbn [bind]. fold (norm1 c). set (N := norm1 c). set (h := Rltb 0.0000001 N).
  set (f := fun p => if h then (zn 0 c p / N)%R else 0%R).
  rewrite <- (ztab_zn 0%R c) at 1. rewrite L.
  pose (S := fun i => ztab 12 (fun k => if k <? i then f k else zn 0%R c k)).
  replace (ztab 12 f) with (S 12) by (apply ztab_ext; intros; zcase; auto).
  replace (ztab 12 (zn 0%R c)) with (S 0) by (apply ztab_ext; intros; zcase; auto).
  apply (for_up_path S 0 12); [lia|]. intros i Hi. unfold S. destruct h eqn:E; tabs.
  - destruct (Z.ltb_spec i i); [lia|]. f_equal. same_tab.
  - f_equal. same_tab.
Qed.

Theorem normalize_spec c : zlen c = 12 ->
  exists c', normalizeL1 c = OK c' /\ zlen c' = 12 /\
    ((0.0000001 < norm1 c)%R -> norm1 c' = 1%R /\ forall p, 0 <= p < 12 -> zn 0%R c' p = (zn 0 c p / norm1 c)%R) /\
    ((norm1 c <= 0.0000001)%R -> c' = repeat 0%R 12) /\
    (forall g, (0 < g)%R -> (0.0000001 < norm1 c)%R -> (0.0000001 < g * norm1 c)%R -> normalizeL1 (map (Rmult g) c) = OK c').
Proof.
  intros L. eexists. split; [now apply normalize_ok|]. split; [reflexivity|]. splits.
  - intros H. destruct (Rltb_spec 0.0000001 (norm1 c)); [|lra]. split; [|intros; now rewrite zn_ztab].
    unfold norm1 at 1. rewrite (rsum_ext 12 _ (fun p => / norm1 c * Rabs (zn 0 c p))%R).
    + rewrite rsum_scal. fold (norm1 c). field. lra.
    + intros p Hp. rewrite zn_ztab by lia. unfold Rdiv. rewrite Rabs_mult, Rabs_inv, (Rabs_right (norm1 c)) by lra. ring.
  - intros H. destruct (Rltb_spec 0.0000001 (norm1 c)); [lra|]. reflexivity.
  - intros g Hg H1 H2.
    assert (N : norm1 (map (Rmult g) c) = (g * norm1 c)%R).
    { unfold norm1. rewrite <- rsum_scal. apply rsum_ext. intros p Hp. rewrite (zn_map (Rmult g) 0%R 0%R) by lia.
      rewrite Rabs_mult, (Rabs_right g) by lra. reflexivity. }
    rewrite normalize_ok by (rewrite zlen_map; auto). rewrite N. f_equal. apply ztab_ext. intros p Hp.
    destruct (Rltb_spec 0.0000001 (g * norm1 c)); [|lra]. destruct (Rltb_spec 0.0000001 (norm1 c)); [|lra].
    rewrite (zn_map (Rmult g) 0%R 0%R) by lia. field. lra.
Qed.
