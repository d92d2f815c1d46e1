(** The sparse kernel and its product with a spectrum. *)
From Coq Require Import List ZArith Reals Lia Lra Bool.
From Verif.Base Require Import Imp Sums RealOps Loops.
From Verif.Maths Require Import IntModel IntSpec IntProofs.
From Verif.Windows Require Import WindowModel WindowProofs.
From Verif.Fft Require Import Cplx FftModel FftSpec FftProofs FftResults.
From Verif.Chroma Require Import CqModel CqSpec CqLoops.
Import ListNotations.
Open Scope Z_scope.

(** *** Parameters *)
Lemma Rpower_gt_1 x : (0 < x)%R -> (1 < Rpower 2 x)%R.
Proof. intros H. rewrite <- (Rpower_O 2) by lra. apply Rpower_lt; lra. Qed.
Lemma Rpower_pos x : (0 < Rpower 2 x)%R.
Proof. apply exp_pos. Qed.
Lemma quality_pos b : 1 <= b -> (0 < quality b)%R.
Proof.
  intros H. unfold quality. assert (0 < 1 / IZR b)%R by (apply Rdiv_lt_0_compat; [lra|apply IZR_lt; lia]).
  pose proof (Rpower_gt_1 _ H0). apply Rdiv_lt_0_compat; lra.
Qed.
Lemma centre_pos f b k : (0 < f)%R -> (0 < centre f b k)%R.
Proof. intros. unfold centre. apply Rmult_lt_0_compat; auto. apply Rpower_pos. Qed.
Lemma centre_ge f b k : 1 <= b -> 0 <= k -> (0 < f)%R -> (f <= centre f b k)%R.
Proof.
  intros Hb Hk Hf. unfold centre.
  assert (1 <= Rpower 2 (IZR k / IZR b))%R.
  { rewrite <- (Rpower_O 2) at 1 by lra. apply Rle_Rpower; [lra|]. apply Rdiv_le_0_compat; [apply IZR_le; lia|apply IZR_lt; lia]. }
  nra.
Qed.
Lemma centre_0 f b : centre f b 0 = f.
Proof. unfold centre. replace (0 / IZR b)%R with 0%R by (unfold Rdiv; ring). rewrite Rpower_O by lra. ring. Qed.

Lemma Zceil_le x y : (x <= y)%R -> Zceil x <= Zceil y.
Proof. intros H. unfold Zceil. assert (Zfloor (- y) <= Zfloor (- x)); [apply Zfloor_le; lra|lia]. Qed.
Lemma Zceil_pos x : (0 < x)%R -> 1 <= Zceil x.
Proof. intros H. pose proof (Zceil_bounds x) as [_ B]. assert (0 < IZR (Zceil x))%R by lra. apply lt_IZR in H0. lia. Qed.

Lemma window_length_bounds fs f b k : 1 <= b -> (0 < fs)%R -> (0 < f)%R -> 0 <= k ->
  1 <= window_length fs f b k <= Zceil (quality b * fs / f).
Proof.
  intros Hb Hs Hf Hk. unfold window_length. pose proof (quality_pos b Hb). pose proof (centre_pos f b k Hf).
  pose proof (centre_ge f b k Hb Hk Hf).
  assert (0 < quality b * fs)%R by (apply Rmult_lt_0_compat; auto).
  split; [apply Zceil_pos; apply Rdiv_lt_0_compat; auto|]. apply Zceil_le.
  unfold Rdiv. apply Rmult_le_compat_l; [lra|]. apply Rinv_le_contravar; auto.
Qed.

Lemma power_half p : power_of_two p -> half_ok p.
Proof.
  intros (k & Hk & ->). destruct (Z.eq_dec k 0) as [->|]; [now left|]. right.
  replace k with (1 + (k - 1)) by lia. rewrite Z.pow_add_r by lia. change (2 ^ 1) with 2.
  rewrite (Z.mul_comm 2 (2 ^ (k - 1))) at 3. rewrite Z.div_mul by lia.
  assert (0 < 2 ^ (k - 1)) by (apply Z.pow_pos_nonneg; lia). lia.
Qed.

(** *** Cells *)
Record cells_ok (n uk : Z) (k : kernel) : Prop := {
  co_is : zlen (k_is k) = zlen (k_real k);
  co_js : zlen (k_js k) = zlen (k_real k);
  co_im : zlen (k_imag k) = zlen (k_real k);
  co_in : forall c, 0 <= c < zlen (k_real k) -> 0 <= zn 0 (k_is k) c < n /\ 0 <= zn 0 (k_js k) c < uk
}.

(** Contribution of cell c to row r of the product with X, where the cell of column [b] is put at X(b). *)
Definition cell (r : Z) (X : Z -> cplx) (k : kernel) (c : Z) : cplx :=
  if (zn 0 (k_js k) c =? r) && negb (zn 0 (k_is k) c =? 0)
  then cmul (zn 0%R (k_real k) c, zn 0%R (k_imag k) c) (X (zn 0 (k_is k) c)) else c0.
Definition total (r : Z) (X : Z -> cplx) (k : kernel) : cplx := csum (zlen (k_real k)) (cell r X k).

Lemma push_ok n uk k i j a b : cells_ok n uk k -> 0 <= i < n -> 0 <= j < uk -> cells_ok n uk (push i j a b k).
Proof.
  intros [A B C D] Hi Hj. split; cbn; zl; try lia. intros c Hc. rewrite !zn_app, A, B. zcase.
  - apply D. lia.
  - assert (c - zlen (k_real k) = 0) as -> by lia. cbn. lia.
Qed.
Lemma push_total n uk k i j a b r X : cells_ok n uk k ->
  total r X (push i j a b k) = cadd (total r X k) (if (j =? r) && negb (i =? 0) then cmul (a, b) (X i) else c0).
Proof.
  intros [A B C D]. unfold total. cbn [push k_real]. zl. pose proof (zlen_nonneg (k_real k)).
  rewrite csum_S by lia. f_equal.
  - apply csum_ext. intros c Hc. unfold cell. cbn [push k_js k_is k_real k_imag]. rewrite !zn_app, A, B, C. zcase; reflexivity.
  - unfold cell. cbn [push k_js k_is k_real k_imag]. rewrite !zn_app, A, B, C. destruct (Z.ltb_spec (zlen (k_real k)) (zlen (k_real k))); [lia|].
    rewrite Z.sub_diag. reflexivity.
Qed.

Lemma cabs_le a b t : (a * a + b * b <= t * t)%R <-> (cabs (a, b) <= Rabs t)%R.
Proof.
  unfold cabs. cbn. split; intros H.
  - rewrite <- (sqrt_Rsqr_abs t). apply sqrt_le_1_alt. exact H.
  - assert (0 <= a * a + b * b)%R by nra.
    apply Rsqr_incr_1 in H; [|apply sqrt_pos|apply Rabs_pos]. rewrite Rsqr_sqrt in H by auto.
    rewrite <- Rsqr_abs in H. exact H.
Qed.

(** One bin's row of cells. *)
Lemma sparsen_ok o j k tr ti (n := q_len o) (V : Z -> cplx) :
  1 <= n -> cells_ok n (q_uk o) k -> 0 <= j < q_uk o -> n <= zlen tr -> n <= zlen ti ->
  (forall b, 0 <= b < n -> V b = (zn 0%R tr b, zn 0%R ti b)) ->
  exists k', sparsen o j tr ti k = OK k' /\ cells_ok n (q_uk o) k' /\
    forall r X, total r X k' = cadd (total r X k) (if j =? r then
      csum n (fun b => cmul (if b =? 0 then c0 else if Rle_dec (cabs (V b)) (Rabs (q_thresh o)) then c0 else
         cmul (cre (1 / IZR n)) (cconj (V b))) (X b)) else c0).
Proof.
  intros Hn Hk Hj L1 L2 HV. unfold sparsen. fold n.
  set (W := fun b => if b =? 0 then c0 else if Rle_dec (cabs (V b)) (Rabs (q_thresh o)) then c0 else cmul (cre (1 / IZR n)) (cconj (V b))).
  match goal with |- context [for_up 0 n ?B k] =>
  destruct (for_up_inv (fun i s => cells_ok n (q_uk o) s /\ forall r X, total r X s = cadd (total r X k)
      (if j =? r then csum i (fun b => cmul (W b) (X b)) else c0)) 0 n B k) as (s & E & C & T) end.
  - lia.
  - split; auto. intros r X. rewrite csum_0 by lia. destruct (j =? r); ring.
  - intros i s Hi (C & T). rewrite (aget_OK 0%R) by lia. cbn [bind]. rewrite (aget_OK 0%R) by lia. cbn [bind].
    pose proof (HV i Hi) as Ei. set (a := zn 0%R tr i) in *. set (b := zn 0%R ti i) in *.
    destruct (Rleb_spec (a * a + b * b) (q_thresh o * q_thresh o)) as [Hle|Hgt].
    + eexists; split; [reflexivity|]. split; auto. intros r X. rewrite T, csum_S by lia.
      assert (W i = c0) as ->.
      { unfold W. rewrite Ei. destruct (i =? 0); auto. destruct Rle_dec as [|N]; auto. contradict N. now apply cabs_le. }
      destruct (j =? r); ring.
    + eexists; split; [reflexivity|]. split; [now apply push_ok|]. intros r X.
      rewrite (push_total n (q_uk o)) by auto. rewrite T, csum_S by lia.
      destruct (j =? r); cbn [andb]; [|ring].
      assert (W i = if negb (i =? 0) then (a / IZR n, - b / IZR n)%R else c0) as ->.
      { unfold W. rewrite Ei. destruct (i =? 0); auto. cbn [negb]. destruct Rle_dec as [N|_].
        - apply cabs_le in N. lra.
        - apply cplx_eq; cbn; unfold Rdiv; ring. }
      destruct (negb (i =? 0)); ring.
  - exists s. split; [exact E|]. split; auto.
Qed.

(** *** Objects *)
(** The members that only the constructor sets. *)
Record made (c : cqconfig) (o : cq) : Prop := {
  md_fs : q_fs o = c_fs c; md_min : q_fmin o = c_min c; md_bpo : q_bpo o = c_bpo c; md_th : q_thresh o = c_thresh c;
  md_q : q_dq o = quality (c_bpo c);
  md_uk : q_uk o = Zceil (IZR (c_bpo c) * ln (c_max c / c_min c) / ln 2);
  md_uk0 : 0 <= q_uk o;
  md_len : is_next_power (Zceil (quality (c_bpo c) * c_fs c / c_min c)) (q_len o);
  md_len30 : q_len o <= 2 ^ 30;
  md_hop : q_hop o = q_len o / 8;
  md_data : zlen (q_data o) = 2 * q_uk o
}.

Definition usable (c : cqconfig) : Prop := 1 <= c_bpo c /\ (0 < c_fs c)%R /\ (0 < c_min c)%R.
(** Kernels that hold the product of the specification. *)
Definition good (c : cqconfig) (n uk : Z) (k : kernel) : Prop :=
  cells_ok n uk k /\ forall r X, 0 <= r < uk ->
    total r X k = csum n (fun b => cmul (kept_bin (c_fs c) (c_min c) (c_bpo c) (c_thresh c) n r b) (X b)).

Lemma next_power_30 l p : l <= 2 ^ 30 -> is_next_power l p -> p <= 2 ^ 30.
Proof. intros H (_ & _ & M). apply M; auto. exists 30. split; lia. Qed.

Lemma int_inv x y : int_ x = OK y -> y = x /\ INT_MIN <= x <= INT_MAX.
Proof.
  unfold int_. destruct (Z.leb_spec INT_MIN x), (Z.leb_spec x INT_MAX); cbn [andb]; intros E; try congruence.
  injection E as <-. auto.
Qed.

Lemma cq_new_ok c jd (uk := Zceil (IZR (c_bpo c) * ln (c_max c / c_min c) / ln 2)) :
  usable c -> Zceil (quality (c_bpo c) * c_fs c / c_min c) <= 2 ^ 30 -> 0 <= uk < 2 ^ 30 ->
  exists o, cq_new c jd = OK o.
Proof.
  intros (Hb & Hs & Hf) Hl Hu. unfold cq_new. change (1 / (Rpower 2 (1 / IZR (c_bpo c)) - 1))%R with (quality (c_bpo c)). fold uk.
  rewrite int_OK by (unfold INT_MIN, INT_MAX; lia). cbn [bind].
  set (l := Zceil (quality (c_bpo c) * c_fs c / c_min c)) in *.
  assert (1 <= l). { apply Zceil_pos. apply Rdiv_lt_0_compat; auto. apply Rmult_lt_0_compat; auto. now apply quality_pos. }
  rewrite int_OK by (unfold INT_MIN, INT_MAX; lia). cbn [bind].
  destruct (next_spec l Hl) as (p & E & P & _). rewrite E. cbn [bind].
  rewrite int_OK by (unfold INT_MIN, INT_MAX; lia). cbn [bind]. destruct (Z.ltb_spec (2 * uk) 0); [lia|].
  eexists; reflexivity.
Qed.

Lemma cq_new_made c jd o : usable c -> cq_new c jd = OK o -> zlen jd = 2 * q_uk o -> made c o /\ q_kernel o = None.
Proof.
  intros (Hb & Hs & Hf) E Lj. unfold cq_new in E.
  change (1 / (Rpower 2 (1 / IZR (c_bpo c)) - 1))%R with (quality (c_bpo c)) in E.
  apply bind_OK in E as (uk & E1 & E). apply int_inv in E1 as [-> I1].
  apply bind_OK in E as (l & E2 & E). apply int_inv in E2 as [-> I2].
  apply bind_OK in E as (p & E3 & E). apply bind_OK in E as (sz & E4 & E). apply int_inv in E4 as [-> I4].
  set (uk := Zceil (IZR (c_bpo c) * ln (c_max c / c_min c) / ln 2)) in *.
  set (l := Zceil (quality (c_bpo c) * c_fs c / c_min c)) in *.
  destruct (Z.ltb_spec (2 * uk) 0); [congruence|]. injection E as <-.
  assert (Hl : 1 <= l). { apply Zceil_pos. apply Rdiv_lt_0_compat; auto. apply Rmult_lt_0_compat; auto. now apply quality_pos. }
  destruct (Z.le_gt_cases l (2 ^ 30)) as [H30|H30]; [|rewrite next_overflow in E3 by lia; congruence].
  destruct (next_spec l H30) as (p' & E' & P & _). rewrite E3 in E'. injection E' as <-.
  specialize (P Hl). pose proof (next_power_30 l p H30 P).
  split; [|reflexivity].
  constructor; cbn [q_fs q_fmin q_bpo q_thresh q_dq q_uk q_len q_hop q_data] in *; auto; try lia.
  apply Z.quot_div_nonneg; [|lia]. destruct P as (_ & ? & _). lia.
Qed.

Lemma made_len c o : usable c -> made c o -> 1 <= q_len o <= 2 ^ 30 /\ half_ok (q_len o) /\
  forall k, 0 <= k -> 1 <= window_length (c_fs c) (c_min c) (c_bpo c) k <= q_len o.
Proof.
  intros (Hb & Hs & Hf) M. destruct (md_len c o M) as (P & L & _).
  pose proof (window_length_bounds (c_fs c) (c_min c) (c_bpo c)) as W.
  pose proof (md_len30 c o M). splits.
  - specialize (W 0 Hb Hs Hf ltac:(lia)). lia.
  - lia.
  - now apply power_half.
  - intros k Hk. specialize (W k Hb Hs Hf Hk). lia.
Qed.

Lemma dft_zn n f g k : 
  dft_re n (zn 0%R (ztab n f)) (im_of (Some (ztab n g))) k = dft_re n f g k /\
  dft_im n (zn 0%R (ztab n f)) (im_of (Some (ztab n g))) k = dft_im n f g k.
Proof.
  unfold dft_re, dft_im, im_of. split; apply rsum_ext; intros j Hj; now rewrite !zn_ztab by lia.
Qed.

Theorem sparsekernel_ok c o wr wi tr ti ji jo (n := q_len o) :
  usable c -> made c o -> zlen wr = n -> zlen wi = n -> zlen tr = n -> zlen ti = n -> zlen ji = n -> zlen jo = n ->
  exists o' k, sparsekernel o wr wi tr ti ji jo = OK o' /\ made c o' /\ q_len o' = n /\ q_uk o' = q_uk o /\
    q_data o' = q_data o /\ q_kernel o' = Some k /\ good c n (q_uk o) k.
Proof.
  intros U M Lwr Lwi Ltr Lti Lji Ljo. destruct (made_len c o U M) as (Hn & Hh & Hw). fold n in Hn, Hh, Hw.
  unfold sparsekernel. fold n.
  destruct (fft_constructed n ji jo) as (f0 & Ef); auto; try lia. rewrite Ef. cbn [bind].
  pose proof (fu_new n ji jo f0 Lji Ljo Ef) as U0.
  set (k0 := {| k_is := []; k_js := []; k_real := []; k_imag := [] |}).
  match goal with |- context [for_down _ 0 ?B ?S] =>
  destruct (for_down_inv (fun j '(f, wr, wi, tr, ti, k) => fft_uses n f /\ zlen wr = n /\ zlen wi = n /\ zlen tr = n /\ zlen ti = n /\
     cells_ok n (q_uk o) k /\ forall r X, 0 <= r < q_uk o -> total r X k = if j <? r then
       csum n (fun b => cmul (kept_bin (c_fs c) (c_min c) (c_bpo c) (c_thresh c) n r b) (X b)) else c0) (q_uk o - 1) 0 B S)
     as (s & E & P) end.
  - pose proof (md_uk0 c o M). lia.
  - splits; auto.
    + constructor; cbn; auto. intros cc Hc. zl. lia.
    + intros r X Hr. unfold total. zcase. rewrite csum_0 by (cbn; zl; lia). reflexivity.
  - intros j [[[[[f wr'] wi'] tr'] ti'] k] Hj (Uf & A1 & A2 & A3 & A4 & C & T).
    destruct M as [M1 M2 M3 M4 M5 M6 M7 M8 M9 M10 M11].
    pose proof (temporal_ok o j wr' wi') as TK. cbv zeta in TK. rewrite M1, M2, M3 in TK. fold n in TK.
    rewrite TK; auto; try (apply Hw; lia); [|unfold INT_MAX; lia]. clear TK. cbn [bind].
    set (a := rotated n (atom (c_fs c) (c_min c) (c_bpo c) n j)).
    destruct (fft_forward_dft n f (ztab n (fun t => fst (a t))) (Some (ztab n (fun t => snd (a t)))) tr' ti')
      as (f' & tr2 & ti2 & E2 & Uf' & (D1 & D2 & _) & (D3 & D4 & _)); auto; try (cbn; zl; lia).
    rewrite E2. cbn [bind].
    destruct (sparsen_ok o j k tr2 ti2 (spectrum n a)) as (k' & E3 & C' & T'); auto; try (fold n; lia).
    { intros b Hb. fold n in Hb. rewrite D2, D4 by auto. destruct (dft_zn n (fun t => fst (a t)) (fun t => snd (a t)) b) as [-> ->]. reflexivity. }
    rewrite E3. cbn [bind]. eexists; split; [reflexivity|]. cbv beta iota. splits; auto; try (zl; lia).
    intros r X Hr. rewrite T', T by auto. fold n. rewrite M4.
    destruct (Z.eqb_spec j r) as [->|Hne]; zcase; try lia; try ring.
    unfold kept_bin, kernel_bin. fold a. ring.
  - rewrite E. destruct s as [[[[[f1 a1] a2] a3] a4] k]. destruct P as (_ & _ & _ & _ & _ & C & T). cbn [bind].
    eexists; exists k; split; [reflexivity|]. cbn. splits; auto; try (destruct M; constructor; cbn; auto; fail).
    split; auto. intros r X Hr. rewrite T by auto. zcase. reflexivity.
Qed.

(** *** The product *)
Lemma zn_holds2 n w1 w2 : 0 <= n -> n <= zlen w1 -> n <= zlen w2 ->
  exists a b, for_up 0 n (fun i '(a, b) => a <- aset a i 0%R ;; b <- aset b i 0%R ;; OK (a, b)) (w1, w2) = OK (a, b) /\
    holds n (fun _ => 0%R) a w1 /\ holds n (fun _ => 0%R) b w2.
Proof.
  intros Hn L1 L2.
  match goal with |- context [for_up 0 n ?B _] =>
  destruct (for_up_inv (fun i '(a, b) => holds i (fun _ => 0%R) a w1 /\ holds i (fun _ => 0%R) b w2) 0 n B (w1, w2)) as ([a b] & E & H1 & H2) end.
  - lia.
  - split; split; auto; split; auto; intros; lia.
  - intros i [a b] Hi ((A1 & A2 & A3) & (B1 & B2 & B3)). rewrite !aset_OK by lia. cbn [bind].
    eexists; split; [reflexivity|].
    split; (split; [zl; lia|]); split; intros k Hk; rewrite zn_upd by lia; zcase; auto; try lia.
    + apply A2. lia. + apply A3. lia. + apply B2. lia. + apply B3. lia.
  - eauto.
Qed.

Lemma process_good o k n fre fim ore oim :
  q_kernel o = Some k -> q_len o = n -> 1 <= n -> 0 <= q_uk o -> cells_ok n (q_uk o) k ->
  n <= zlen fre -> n <= zlen fim -> q_uk o <= zlen ore -> q_uk o <= zlen oim ->
  exists ore' oim', cq_process o fre fim ore oim = OK (ore', oim') /\
    holds (q_uk o) (fun r => fst (total r (fun b => (zn 0%R fre (n - b), zn 0%R fim (n - b))) k)) ore' ore /\
    holds (q_uk o) (fun r => snd (total r (fun b => (zn 0%R fre (n - b), zn 0%R fim (n - b))) k)) oim' oim.
Proof.
  intros Hk Hl Hn Hu C L1 L2 L3 L4. unfold cq_process. rewrite Hk, Hl.
  destruct (zn_holds2 (q_uk o) ore oim) as (a0 & b0 & E0 & Z1 & Z2); auto; try lia. rewrite E0. cbn [bind].
  set (X := fun b => (zn 0%R fre (n - b), zn 0%R fim (n - b))).
  destruct C as [C1 C2 C3 C4].
  match goal with |- context [for_up 0 (zlen (k_real k)) ?B _] =>
  destruct (for_up_inv (fun i '(a, b) => holds (q_uk o) (fun r => fst (csum i (cell r X k))) a ore /\
     holds (q_uk o) (fun r => snd (csum i (cell r X k))) b oim) 0 (zlen (k_real k)) B (a0, b0)) as ([a b] & E & H1 & H2) end.
  - apply zlen_nonneg.
  - split; (eapply holds_ext; [|eassumption]); intros r Hr; cbv beta; now rewrite csum_0 by lia.
  - intros i [a b] Hi ((A1 & A2 & A3) & (B1 & B2 & B3)). destruct (C4 i Hi) as [I1 I2].
    rewrite (aget_OK 0) by lia. cbn [bind]. rewrite (aget_OK 0) by lia. cbn [bind].
    set (row := zn 0 (k_js k) i) in *. set (col := zn 0 (k_is k) i) in *.
    assert (V : forall r, csum (i + 1) (cell r X k) = cadd (csum i (cell r X k)) (if (row =? r) && negb (col =? 0) then
       cmul (zn 0%R (k_real k) i, zn 0%R (k_imag k) i) (X col) else c0)).
    { intros r. rewrite csum_S by lia. reflexivity. }
    destruct (Z.eqb_spec col 0) as [Ec|Ec].
    + eexists; split; [reflexivity|]. split.
      * apply (holds_ext _ (fun r => fst (csum i (cell r X k)))); [|split; auto]. intros r Hr. cbv beta. rewrite V, andb_false_r. cbn. ring.
      * apply (holds_ext _ (fun r => snd (csum i (cell r X k)))); [|split; auto]. intros r Hr. cbv beta. rewrite V, andb_false_r. cbn. ring.
    + repeat (rewrite (aget_OK 0%R) by lia; cbn [bind]).
      rewrite aset_OK by lia. cbn [bind]. repeat (rewrite (aget_OK 0%R) by lia; cbn [bind]). rewrite ?aset_OK by lia. cbn [bind].
      eexists; split; [reflexivity|].
      split; (split; [zl; lia|]); split; intros r Hr; rewrite zn_upd by lia; zcase; try lia.
      * subst r. rewrite V, Z.eqb_refl. rewrite A2 by lia. cbn. ring.
      * rewrite V. destruct (Z.eqb_spec row r); [congruence|]. cbn [andb]. rewrite A2 by lia. cbn. ring.
      * apply A3. lia.
      * subst r. rewrite V, Z.eqb_refl. rewrite B2 by lia. cbn. ring.
      * rewrite V. destruct (Z.eqb_spec row r); [congruence|]. cbn [andb]. rewrite B2 by lia. cbn. ring.
      * apply B3. lia.
  - exists a, b. split; [exact E|]. split; assumption.
Qed.

Lemma kept_0 fs f b th n k : kept_bin fs f b th n k 0 = c0.
Proof. reflexivity. Qed.
Lemma product_bin fs f b th n X r : 1 <= n ->
  csum n (fun i => cmul (kept_bin fs f b th n r i) (X (n - i))) = cq_bin fs f b th n X r.
Proof.
  intros Hn. rewrite csum_first by lia. rewrite kept_0. unfold cq_bin. ring.
Qed.
