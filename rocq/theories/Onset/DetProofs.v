(** Proofs about the detection functions: the loops, and the state kept between frames. *)
From Coq Require Import List ZArith Reals Lia Lra Bool.
From Verif.Base Require Import Imp Sums RealOps Loops Tables.
From Verif.Maths Require Import RealModel RealSpec RealProofs.
From Verif.Fft Require Import Cplx FftSpec.
From Verif.Windows Require Import WindowModel WindowSpec WindowProofs.
From Verif.Vocoder Require Import PvModel PvSpec PvProofs PvResults.
From Verif.Onset Require Import DetModel DetSpec.
Import ListNotations.
Open Scope Z_scope.

Ltac tabs := repeat (first [rewrite aget_tab by lia | rewrite aset_tab by lia]; cbn [bind]).
Ltac same_tab := apply ztab_ext; intros x Hx; unfold set1; zcase; subst; auto; try lia.

(** *** The loops over the bins *)
Lemma hfc_ok h f : 0 <= h -> df_hfc h (ztab h f) = OK (rsum h (fun k => f k * IZR (k + 1)))%R.
Proof.
  intros H. unfold df_hfc.
  apply (for_up_path (fun i => rsum i (fun k => f k * IZR (k + 1))%R) 0 h); [lia|].
  intros i Hi. tabs. now rewrite rsum_S by lia.
Qed.

Lemma specdiff_ok h f g : 0 <= h ->
  df_specdiff h (ztab h f) (ztab h g) = OK (rsum h (fun k => sqrt (Rabs (f k * f k - g k * g k)))%R, ztab h f).
Proof.
  intros H. unfold df_specdiff.
  pose (S := fun i => (rsum i (fun k => sqrt (Rabs (f k * f k - g k * g k)))%R, ztab h (fun k => if k <? i then f k else g k))).
  replace (OK _) with (OK (S h)).
  2:{ unfold S. do 2 f_equal. apply ztab_ext; intros; zcase; auto. }
  replace (ztab h g) with (ztab h (fun k => if k <? 0 then f k else g k)) by (apply ztab_ext; intros; zcase; auto).
  apply (for_up_path S 0 h); [lia|]. intros i Hi. unfold S. tabs. rewrite rsum_S by lia.
  destruct (Z.ltb_spec i i); [lia|]. do 2 f_equal. same_tab.
Qed.

Lemma phasedev_ok h f g k0 : 0 <= h ->
  df_phasedev h (ztab h f) (ztab h g) (ztab h k0)
  = OK (rsum h (fun k => Rabs (princarg (f k - 2 * g k + k0 k)))%R, ztab h f, ztab h g).
Proof.
  intros H. unfold df_phasedev.
  pose (S := fun i => (rsum i (fun k => Rabs (princarg (f k - 2 * g k + k0 k)))%R,
    ztab h (fun k => if k <? i then f k else g k), ztab h (fun k => if k <? i then g k else k0 k))).
  replace (OK _) with (OK (S h)).
  2:{ unfold S. f_equal. f_equal; [f_equal|]; apply ztab_ext; intros; zcase; auto. }
  replace (ztab h g) with (ztab h (fun k => if k <? 0 then f k else g k)) at 1 by (apply ztab_ext; intros; zcase; auto).
  replace (ztab h k0) with (ztab h (fun k => if k <? 0 then g k else k0 k)) by (apply ztab_ext; intros; zcase; auto).
  apply (for_up_path S 0 h); [lia|]. intros i Hi. unfold S. tabs. rewrite rsum_S by lia.
  destruct (Z.ltb_spec i i); [lia|]. f_equal. f_equal; [f_equal|]; same_tab.
Qed.

Lemma complexsd_ok h m f p g k0 : 0 <= h ->
  df_complexsd h (ztab h m) (ztab h f) (ztab h p) (ztab h g) (ztab h k0)
  = OK (rsum h (fun k => let d := princarg (f k - 2 * g k + k0 k) in
          sqrt ((p k - m k * cos d) * (p k - m k * cos d) + - (m k * sin d) * - (m k * sin d)))%R,
        ztab h m, ztab h f, ztab h g).
Proof.
  intros H. unfold df_complexsd. match goal with |- _ = OK (rsum h ?E, _, _, _) => set (e := E) end.
  pose (S := fun i => (rsum i e, ztab h (fun k => if k <? i then m k else p k),
    ztab h (fun k => if k <? i then f k else g k), ztab h (fun k => if k <? i then g k else k0 k))).
  replace (OK _) with (OK (S h)).
  2:{ unfold S. f_equal. f_equal; [f_equal; [f_equal|]|]; apply ztab_ext; intros; zcase; auto. }
  replace (ztab h p) with (ztab h (fun k => if k <? 0 then m k else p k)) by (apply ztab_ext; intros; zcase; auto).
  replace (ztab h g) with (ztab h (fun k => if k <? 0 then f k else g k)) at 1 by (apply ztab_ext; intros; zcase; auto).
  replace (ztab h k0) with (ztab h (fun k => if k <? 0 then g k else k0 k)) by (apply ztab_ext; intros; zcase; auto).
  apply (for_up_path S 0 h); [lia|]. intros i Hi. unfold S. tabs. rewrite rsum_S by lia.
  destruct (Z.ltb_spec i i); [lia|]. f_equal. f_equal; [f_equal; [f_equal|]|]; same_tab.
Qed.

Lemma broadband_ok h rise f g : 0 <= h ->
  df_broadband h rise (ztab h f) (ztab h g)
  = OK (rsum h (fun k => if Rltb 0 (g k) && db_over (f k * f k / g k) rise then 1 else 0)%R, ztab h (fun k => f k * f k)%R).
Proof.
  intros H. unfold df_broadband. match goal with |- _ = OK (rsum h ?E, _) => set (e := E) end.
  pose (S := fun i => (rsum i e, ztab h (fun k => if k <? i then (f k * f k)%R else g k))).
  replace (OK _) with (OK (S h)).
  2:{ unfold S. do 2 f_equal. apply ztab_ext; intros; zcase; auto. }
  replace (ztab h g) with (ztab h (fun k => if k <? 0 then (f k * f k)%R else g k)) by (apply ztab_ext; intros; zcase; auto).
  apply (for_up_path S 0 h); [lia|]. intros i Hi. unfold S. tabs. rewrite rsum_S by lia.
  destruct (Z.ltb_spec i i); [lia|]. f_equal. f_equal.
  - unfold e. destruct (Rltb 0 (g i)), (db_over (f i * f i / g i) rise); cbn [andb]; lra.
  - same_tab.
Qed.

Definition follow (relax floor p m : R) : R := Rmax floor (Rmax m (relax * p + (1 - relax) * m)).

Lemma whiten_ok h relax floor p m : 0 <= h -> (0 <= relax)%R -> (0 < floor)%R ->
  whiten h relax floor (ztab h p) (ztab h m)
  = OK (ztab h (fun k => follow relax floor (p k) (m k)), ztab h (fun k => m k / follow relax floor (p k) (m k))%R).
Proof.
  intros H Hr Hf. unfold whiten. match goal with |- _ = OK (ztab h ?E, ztab h ?F) => set (q := E); set (e := F) end.
  pose (S := fun i => (ztab h (fun k => if k <? i then q k else p k), ztab h (fun k => if k <? i then e k else m k))).
  replace (OK _) with (OK (S h)).
  2:{ unfold S. do 2 f_equal; apply ztab_ext; intros; zcase; auto. }
  replace (ztab h p) with (ztab h (fun k => if k <? 0 then q k else p k)) by (apply ztab_ext; intros; zcase; auto).
  replace (ztab h m) with (ztab h (fun k => if k <? 0 then e k else m k)) by (apply ztab_ext; intros; zcase; auto).
  apply (for_up_path S 0 h); [lia|]. intros i Hi. unfold S. tabs.
  destruct (Z.ltb_spec i i); [lia|].
  set (lo := if Rltb (if Rltb (m i) (p i) then _ else _) floor then _ else _).
  assert (E : lo = q i).
  { unfold lo, q, follow. unfold Rmax. destruct (Rltb_spec (m i) (p i)).
    - destruct (Rltb_spec (m i + (p i - m i) * relax) floor); repeat destruct (Rle_dec _ _); nra.
    - destruct (Rltb_spec (m i) floor); repeat destruct (Rle_dec _ _); nra. }
  rewrite E. assert (Q : (0 < q i)%R) by (unfold q, follow; pose proof (Rmax_l floor (Rmax (m i) (relax * p i + (1 - relax) * m i))); lra).
  destruct (Reqb_spec (q i) 0); [lra|]. tabs. f_equal. f_equal; same_tab.
Qed.

(** *** The phase deviation *)
Lemma off_turn_princarg x : off_turn x (Rabs (princarg x)).
Proof.
  destruct (princarg_spec x) as [[q E] B]. split; [apply Rabs_le; lra|]. exists (- q).
  rewrite opp_IZR. f_equal. lra.
Qed.

Lemma cos_same x y : same_angle x y -> cos x = cos y /\ sin x = sin y.
Proof.
  intros [q ->]. replace (y + IZR q * (2 * PI))%R with (y + 2 * IZR q * PI)%R by ring.
  destruct (Z.le_ge_cases 0 q) as [H|H].
  - replace (IZR q) with (INR (Z.to_nat q)) by (rewrite INR_IZR_INZ; f_equal; lia). split; [apply cos_period|apply sin_period].
  - assert (E : IZR q = (- INR (Z.to_nat (- q)))%R) by (rewrite INR_IZR_INZ, <- opp_IZR; f_equal; lia).
    rewrite E. set (n := Z.to_nat (- q)).
    rewrite <- (cos_period (y + 2 * - INR n * PI) n), <- (sin_period (y + 2 * - INR n * PI) n).
    replace (y + 2 * - INR n * PI + 2 * INR n * PI)%R with y by ring. auto.
Qed.

Lemma complex_apart p m e th d : same_angle d (th - e) ->
  (sqrt ((p - m * cos d) * (p - m * cos d) + - (m * sin d) * - (m * sin d)) = apart p e m th)%R.
Proof.
  intros H. destruct (cos_same _ _ H) as [-> ->]. unfold apart. f_equal. rewrite cos_minus, sin_minus.
  pose proof (sin2_cos2 th) as A. pose proof (sin2_cos2 e) as B. unfold Rsqr in *.
  set (c := cos th) in *. set (s := sin th) in *. set (c' := cos e) in *. set (s' := sin e) in *.
  transitivity (p * p - 2 * p * m * (c * c' + s * s') + m * m * ((s * s + c * c) * (s' * s' + c' * c')))%R; [ring|].
  rewrite A, B. transitivity (p * p * (s' * s' + c' * c') - 2 * p * m * (c * c' + s * s') + m * m * (s * s + c * c))%R; [rewrite A, B; ring|ring].
Qed.

Lemma db_over_spec g f rise : (0 < g)%R ->
  db_over (f * f / (g * g)) rise = Rltb (Rpower 10 (rise / 10) * g ^ 2) (f ^ 2).
Proof.
  intros G. unfold db_over.
  assert (L10 : (0 < ln 10)%R) by (rewrite <- ln_1; apply ln_increasing; lra).
  assert (G2 : (0 < g * g)%R) by nra.
  assert (P : (0 < Rpower 10 (rise / 10))%R) by apply exp_pos.
  assert (FF : (0 <= f * f)%R) by nra.
  destruct (Rltb_spec 0 (f * f / (g * g))) as [Q|Q].
  - assert (Qe : (f ^ 2 = f * f / (g * g) * g ^ 2)%R) by (field; lra).
    set (q := (f * f / (g * g))%R) in *. rewrite Qe.
    assert (E : forall b1 b2 : bool, (b1 = true <-> b2 = true) -> b1 = b2) by (intros [|] [|] [A B]; auto; symmetry; auto).
    apply E. rewrite !Rltb_true. clear E.
    assert (X : (rise < 10 * (ln q / ln 10) <-> rise / 10 * ln 10 < ln q)%R).
    { split; intros A.
      - apply (Rmult_lt_compat_r (ln 10)) in A; auto. replace (10 * (ln q / ln 10) * ln 10)%R with (10 * ln q)%R in A by (field; lra). lra.
      - apply (Rmult_lt_reg_r (ln 10)); auto. replace (10 * (ln q / ln 10) * ln 10)%R with (10 * ln q)%R by (field; lra). lra. }
    rewrite X. unfold Rpower. split; intros A.
    + apply exp_increasing in A. rewrite exp_ln in A by auto. nra.
    + apply exp_lt_inv. rewrite exp_ln by auto. nra.
  - symmetry. apply Rltb_false.
    assert (f * f = 0)%R.
    { apply Rle_antisym; auto. replace (f * f)%R with (f * f / (g * g) * (g * g))%R by (field; lra). nra. }
    nra.
Qed.

(** Magnitude and argument are unique. *)
Lemma polar_unique re im m a m' a' : polar re im m a -> polar re im m' a' -> m = m' /\ a = a'.
Proof.
  intros (A1 & A2 & A3 & A4 & A5) (B1 & B2 & B3 & B4 & B5).
  assert (E : m = m').
  { apply Rsqr_inj; auto. unfold Rsqr. pose proof (sin2_cos2 a) as S. pose proof (sin2_cos2 a') as S'. unfold Rsqr in *.
    transitivity (re * re + im * im)%R.
    - rewrite A2, A3. transitivity (m * m * (sin a * sin a + cos a * cos a))%R; [rewrite S|]; ring.
    - rewrite B2, B3. transitivity (m' * m' * (sin a' * sin a' + cos a' * cos a'))%R; [|rewrite S']; ring. }
  split; [auto|]. subst m'. destruct (Req_dec m 0) as [Z0|N]; [rewrite A5, B5; auto|].
  assert (C : cos a = cos a') by (apply (Rmult_eq_reg_l m); auto; lra).
  assert (S : sin a = sin a') by (apply (Rmult_eq_reg_l m); auto; lra).
  assert (D1 : cos (a - a') = 1%R).
  { rewrite cos_minus, C, S. pose proof (sin2_cos2 a') as X. unfold Rsqr in X. lra. }
  destruct (Rle_lt_dec a a') as [L|L].
  - destruct L as [L|L]; auto. exfalso.
    assert (H : (cos (a' - a) < 1)%R). { replace (a' - a)%R with (2 * ((a' - a) / 2))%R by field. rewrite cos_2a_sin.
      pose proof (sin_gt_0 ((a' - a) / 2) ltac:(lra) ltac:(lra)). nra. }
    rewrite <- cos_neg in H. replace (- (a' - a))%R with (a - a')%R in H by ring. lra.
  - exfalso.
    assert (H : (cos (a - a') < 1)%R). { replace (a - a')%R with (2 * ((a - a') / 2))%R by field. rewrite cos_2a_sin.
      pose proof (sin_gt_0 ((a - a') / 2) ltac:(lra) ltac:(lra)). nra. }
    lra.
Qed.
