(** Constant-Q transforms as an owner of the object sees them. *)
From Coq Require Import List ZArith Reals Lia Lra Bool.
From Verif.Base Require Import Imp Sums RealOps Loops.
From Verif.Maths Require Import IntModel IntSpec IntProofs.
From Verif.Fft Require Import Cplx FftModel FftSpec FftProofs FftResults.
From Verif.Chroma Require Import CqModel CqSpec CqLoops CqProofs CqTime.
Import ListNotations.
Open Scope Z_scope.

(** Objects built for configuration [c], then used in any way; the flag says whether the kernel was made. *)
Inductive cq_uses (c : cqconfig) : bool -> cq -> Prop :=
| cu_new jd o : cq_new c jd = OK o -> zlen jd = 2 * q_uk o -> cq_uses c false o
| cu_kernel b o wr wi tr ti ji jo o' : cq_uses c b o ->
    zlen wr = q_len o -> zlen wi = q_len o -> zlen tr = q_len o -> zlen ti = q_len o -> zlen ji = q_len o -> zlen jo = q_len o ->
    sparsekernel o wr wi tr ti ji jo = OK o' -> cq_uses c true o'
| cu_interleaved b o fft o' d : cq_uses c b o -> cq_process_interleaved o fft = OK (o', d) -> cq_uses c b o'.

Definition cq_inv (c : cqconfig) (b : bool) (o : cq) : Prop :=
  made c o /\ if b then exists k, q_kernel o = Some k /\ good c (q_len o) (q_uk o) k else q_kernel o = None.

Lemma interleaved_overrun o k fft d : q_kernel o = Some k -> 1 <= q_uk o -> zlen d = 2 * q_uk o -> interleaved o fft d = UB.
Proof.
  intros Hk Hu Ld. unfold interleaved. rewrite Hk.
  match goal with |- context [for_up 0 (2 * q_uk o) ?B d] => set (body := B) end.
  rewrite (for_up_split 0 (2 * q_uk o - 1) (2 * q_uk o) body d) by lia.
  destruct (for_up_inv (fun _ s => zlen s = 2 * q_uk o) 0 (2 * q_uk o - 1) body d) as (s & E & L); auto; try lia.
  { intros i s Hi L. unfold body. rewrite aset_OK by lia. cbn [bind]. rewrite aset_OK by (zl; lia).
    eexists; split; [reflexivity|]. zl. lia. }
  rewrite E. cbn [bind]. rewrite for_up_first by lia. unfold body at 1. rewrite aset_OK by lia. cbn [bind].
  unfold aset at 1. zl. destruct (Z.leb_spec 0 (2 * q_uk o - 1 + 1)), (Z.ltb_spec (2 * q_uk o - 1 + 1) (zlen s)); cbn; auto; lia.
Qed.

Lemma cq_uses_inv c b o : usable c -> cq_uses c b o -> cq_inv c b o.
Proof.
  intros U. induction 1 as [jd o E L|b o wr wi tr ti ji jo o' _ [M _] L1 L2 L3 L4 L5 L6 E|b o fft o' d _ [M K] E].
  - destruct (cq_new_made c jd o U E L). split; auto.
  - destruct (sparsekernel_ok c o wr wi tr ti ji jo U M) as (o1 & k & E1 & M1 & N1 & N2 & N3 & N4 & G); auto.
    rewrite E in E1. injection E1 as <-. split; auto. exists k. rewrite N1, N2. auto.
  - unfold cq_process_interleaved in E. apply bind_OK in E as (d' & E & E'). injection E' as <- <-.
    assert (L : zlen d' = zlen (q_data o)).
    { unfold interleaved in E. destruct (q_kernel o) as [k|] eqn:Ek; [|congruence].
      destruct (Z.le_gt_cases 1 (q_uk o)) as [Hu|Hu].
      - pose proof (interleaved_overrun o k fft (q_data o) Ek Hu (md_data c o M)) as X. unfold interleaved in X. rewrite Ek in X. congruence.
      - rewrite for_up_empty in E by lia. cbn [bind] in E. destruct b; [|congruence]. destruct K as (k1 & K1 & (C & _)).
        injection K1 as <-. destruct (Z.eq_dec (zlen (k_real k)) 0) as [Z0|N0].
        + rewrite Z0, for_up_empty in E by lia. congruence.
        + pose proof (zlen_nonneg (k_real k)). destruct (co_in _ _ _ C 0 ltac:(lia)). pose proof (md_uk0 c o M). lia. }
    split; [|exact K]. destruct M; constructor; cbn [q_fs q_fmin q_bpo q_thresh q_dq q_uk q_len q_hop q_data]; auto. now rewrite L.
Qed.

Theorem cq_constructed c jd :
  usable c -> Zceil (quality (c_bpo c) * c_fs c / c_min c) <= 2 ^ 30 ->
  0 <= Zceil (IZR (c_bpo c) * ln (c_max c / c_min c) / ln 2) < 2 ^ 30 -> exists o, cq_new c jd = OK o.
Proof. intros U A B. exact (cq_new_ok c jd U A B). Qed.

Theorem cq_parameters c b o : usable c -> cq_uses c b o ->
  q_dq o = quality (c_bpo c) /\
  q_uk o = Zceil (IZR (c_bpo c) * ln (c_max c / c_min c) / ln 2) /\
  is_next_power (Zceil (quality (c_bpo c) * c_fs c / c_min c)) (q_len o) /\ q_hop o = q_len o / 8.
Proof. intros U H. destruct (cq_uses_inv c b o U H) as [[] _]. auto. Qed.

(** The number of bins covers the range: the last bin is below the upper limit, one more is not. *)
Lemma centre_lt f b k x : 1 <= b -> (0 < f)%R -> (0 < x)%R -> ((IZR k < IZR b * ln (x / f) / ln 2)%R <-> (centre f b k < x)%R).
Proof.
  intros Hb Hf Hx. unfold centre, Rpower.
  assert (L2 : (0 < ln 2)%R) by (rewrite <- ln_1; apply ln_increasing; lra).
  assert (B : (0 < IZR b)%R) by (apply IZR_lt; lia).
  assert (Px : (0 < x / f)%R) by (apply Rdiv_lt_0_compat; auto).
  assert (E1 : ((IZR k < IZR b * ln (x / f) / ln 2)%R <-> (IZR k / IZR b * ln 2 < ln (x / f))%R)).
  { split; intros H.
    - apply (Rmult_lt_reg_r (IZR b / ln 2)); [now apply Rdiv_lt_0_compat|].
      replace (IZR k / IZR b * ln 2 * (IZR b / ln 2))%R with (IZR k) by (field; lra).
      replace (ln (x / f) * (IZR b / ln 2))%R with (IZR b * ln (x / f) / ln 2)%R by (field; lra). auto.
    - apply (Rmult_lt_compat_r (IZR b / ln 2)) in H; [|now apply Rdiv_lt_0_compat].
      replace (IZR k / IZR b * ln 2 * (IZR b / ln 2))%R with (IZR k) in H by (field; lra).
      replace (ln (x / f) * (IZR b / ln 2))%R with (IZR b * ln (x / f) / ln 2)%R in H by (field; lra). auto. }
  rewrite E1. split; intros H.
  - apply exp_increasing in H. rewrite exp_ln in H by auto.
    apply (Rmult_lt_compat_l f) in H; auto. replace (f * (x / f))%R with x in H by (field; lra). auto.
  - apply exp_lt_inv. rewrite exp_ln by auto. apply (Rmult_lt_reg_l f); auto. replace (f * (x / f))%R with x by (field; lra). auto.
Qed.
Theorem cq_range c b o k : usable c -> (0 < c_max c)%R -> cq_uses c b o -> 0 <= k ->
  (k < q_uk o <-> (centre (c_min c) (c_bpo c) k < c_max c)%R).
Proof.
  intros U Hm H Hk. destruct (cq_parameters c b o U H) as (_ & -> & _). destruct U as (U1 & U2 & U3).
  rewrite <- centre_lt by auto. set (x := (IZR (c_bpo c) * ln (c_max c / c_min c) / ln 2)%R).
  pose proof (Zceil_bounds x) as [B1 B2]. split; intros A.
  - assert (IZR k <= IZR (Zceil x) - 1)%R by (rewrite <- minus_IZR; apply IZR_le; lia). lra.
  - apply lt_IZR. lra.
Qed.

Theorem cq_kernel_made c b o wr wi tr ti ji jo : usable c -> cq_uses c b o ->
  zlen wr = q_len o -> zlen wi = q_len o -> zlen tr = q_len o -> zlen ti = q_len o -> zlen ji = q_len o -> zlen jo = q_len o ->
  exists o', sparsekernel o wr wi tr ti ji jo = OK o' /\ cq_uses c true o'.
Proof.
  intros U H L1 L2 L3 L4 L5 L6. destruct (cq_uses_inv c b o U H) as [M _].
  destruct (sparsekernel_ok c o wr wi tr ti ji jo U M) as (o' & k & E & _); auto.
  exists o'. split; auto. eapply cu_kernel; [exact H|..|exact E]; auto.
Qed.

(** Without kernel nothing is written. *)
Theorem cq_no_kernel c o fre fim ore oim : usable c -> cq_uses c false o -> cq_process o fre fim ore oim = OK (ore, oim).
Proof. intros U H. destruct (cq_uses_inv c false o U H) as [_ K]. unfold cq_process. now rewrite K. Qed.

Definition frame (re im : list R) (b : Z) : cplx := (zn 0%R re b, zn 0%R im b).
Notation bin_of c n X := (cq_bin (c_fs c) (c_min c) (c_bpo c) (c_thresh c) n X).

Theorem cq_product c o fre fim ore oim (n := q_len o) : usable c -> cq_uses c true o ->
  n <= zlen fre -> n <= zlen fim -> q_uk o <= zlen ore -> q_uk o <= zlen oim ->
  exists ore' oim', cq_process o fre fim ore oim = OK (ore', oim') /\
    holds (q_uk o) (fun k => fst (bin_of c n (frame fre fim) k)) ore' ore /\
    holds (q_uk o) (fun k => snd (bin_of c n (frame fre fim) k)) oim' oim.
Proof.
  intros U H L1 L2 L3 L4. destruct (cq_uses_inv c true o U H) as [M (k & K & (C & T))].
  destruct (made_len c o U M) as (Hn & _). pose proof (md_uk0 c o M).
  destruct (process_good o k n fre fim ore oim) as (a & b & E & H1 & H2); auto; try (unfold n; lia).
  exists a, b. split; [exact E|].
  split; (eapply holds_ext; [|eassumption]); intros r Hr; cbv beta; rewrite T by auto; f_equal;
    apply (product_bin _ _ _ _ _ (frame fre fim)); unfold n; lia.
Qed.

Lemma cq_bin_linear fs f bpo th n X Y a b k :
  cq_bin fs f bpo th n (fun i => cadd (cmul a (X i)) (cmul b (Y i))) k =
  cadd (cmul a (cq_bin fs f bpo th n X k)) (cmul b (cq_bin fs f bpo th n Y k)).
Proof.
  unfold cq_bin. rewrite <- !csum_scal, <- csum_plus. apply csum_ext. intros i Hi. ring.
Qed.

(** The transform of a X + b Y is a times that of X plus b times that of Y, whatever the outputs held. *)
Theorem cq_linear c o a b xr xi yr yi zr zi o1r o1i o2r o2i o3r o3i (n := q_len o) : usable c -> cq_uses c true o ->
  n <= zlen xr -> n <= zlen xi -> n <= zlen yr -> n <= zlen yi -> n <= zlen zr -> n <= zlen zi ->
  q_uk o <= zlen o1r -> q_uk o <= zlen o1i -> q_uk o <= zlen o2r -> q_uk o <= zlen o2i -> q_uk o <= zlen o3r -> q_uk o <= zlen o3i ->
  (forall i, 0 <= i < n -> frame zr zi i = cadd (cmul a (frame xr xi i)) (cmul b (frame yr yi i))) ->
  exists r1 i1 r2 i2 r3 i3, cq_process o xr xi o1r o1i = OK (r1, i1) /\ cq_process o yr yi o2r o2i = OK (r2, i2) /\
    cq_process o zr zi o3r o3i = OK (r3, i3) /\
    forall k, 0 <= k < q_uk o -> frame r3 i3 k = cadd (cmul a (frame r1 i1 k)) (cmul b (frame r2 i2 k)).
Proof.
  intros U H X1 X2 Y1 Y2 Z1 Z2 A1 A2 A3 A4 A5 A6 Hz.
  destruct (cq_product c o xr xi o1r o1i U H) as (r1 & i1 & E1 & (_ & P1 & _) & (_ & Q1 & _)); auto.
  destruct (cq_product c o yr yi o2r o2i U H) as (r2 & i2 & E2 & (_ & P2 & _) & (_ & Q2 & _)); auto.
  destruct (cq_product c o zr zi o3r o3i U H) as (r3 & i3 & E3 & (_ & P3 & _) & (_ & Q3 & _)); auto.
  fold n in P1, Q1, P2, Q2, P3, Q3.
  exists r1, i1, r2, i2, r3, i3. splits; auto. intros k Hk.
  unfold frame at 1 2 3. rewrite P1, Q1, P2, Q2, P3, Q3 by auto. rewrite <- !surjective_pairing.
  rewrite <- cq_bin_linear. unfold cq_bin. apply csum_ext. intros i Hi. f_equal. apply Hz. lia.
Qed.

(** *** The overload with interleaved data *)
Theorem cq_interleaved_overrun c o fft : usable c -> cq_uses c true o -> 1 <= q_uk o -> cq_process_interleaved o fft = UB.
Proof.
  intros U H Hu. destruct (cq_uses_inv c true o U H) as [M (k & K & _)]. unfold cq_process_interleaved.
  rewrite (interleaved_overrun o k); auto. apply (md_data c o M).
Qed.
Theorem cq_interleaved_no_kernel c o fft : usable c -> cq_uses c false o -> cq_process_interleaved o fft = OK (o, q_data o).
Proof.
  intros U H. destruct (cq_uses_inv c false o U H) as [M K]. unfold cq_process_interleaved, interleaved. rewrite K. cbn [bind].
  clear H M. destruct o; cbn in K |- *; subst; reflexivity.
Qed.

(** Were the array one element longer, it would use every spectral bin one too low. *)
Theorem cq_interleaved_off_by_one c o fre fim fft d (n := q_len o) : usable c -> cq_uses c true o -> n <= zlen fre -> n <= zlen fim ->
  2 * n <= zlen fft -> 2 * q_uk o + 1 <= zlen d ->
  (forall b, 0 <= b < n -> zn 0%R fft (2 * b) = zn 0%R fre b /\ zn 0%R fft (2 * b + 1) = zn 0%R fim b) ->
  exists d', interleaved o fft d = OK d' /\
    forall k, 0 <= k < q_uk o ->
      (zn 0%R d' (2 * k), zn 0%R d' (2 * k + 1)) = bin_of c n (fun b => frame fre fim (b - 1)) k.
Proof.
  intros U H L1 L2 L3 L4 Hf. destruct (cq_uses_inv c true o U H) as [M (k & K & (C & T))].
  destruct (made_len c o U M) as (Hn & _). pose proof (md_uk0 c o M) as Hu. fold n in Hn, C, T.
  unfold interleaved. rewrite K. fold n.
  match goal with |- context [for_up 0 (2 * q_uk o) ?B d] =>
  destruct (for_up_inv (fun i s => zlen s = zlen d /\ forall j, 0 <= j < i -> zn 0%R s j = 0%R) 0 (2 * q_uk o) B d) as (d0 & E0 & L0 & V0) end.
  { lia. } { split; auto. intros; lia. }
  { intros i s Hi (L & V). rewrite aset_OK by lia. cbn [bind]. rewrite aset_OK by (zl; lia). eexists; split; [reflexivity|].
    split; [zl; lia|]. intros j Hj. rewrite zn_upd by (zl; lia). rewrite zn_upd by lia. zcase; auto. apply V. lia. }
  rewrite E0. cbn [bind].
  set (X := fun b => frame fre fim (n - b - 1)).
  destruct C as [C1 C2 C3 C4].
  match goal with |- context [for_up 0 (zlen (k_real k)) ?B _] =>
  destruct (for_up_inv (fun i s => zlen s = zlen d /\ forall r, 0 <= r < q_uk o -> (zn 0%R s (2 * r), zn 0%R s (2 * r + 1)) = csum i (cell r X k))
     0 (zlen (k_real k)) B d0) as (d' & E & L & V) end.
  - apply zlen_nonneg.
  - split; auto. intros r Hr. rewrite csum_0 by lia. rewrite !V0 by lia. reflexivity.
  - intros i s Hi (L & V). destruct (C4 i Hi) as [I1 I2].
    rewrite (aget_OK 0) by lia. cbn [bind]. rewrite (aget_OK 0) by lia. cbn [bind].
    set (row := zn 0 (k_js k) i) in *. set (col := zn 0 (k_is k) i) in *.
    assert (W : forall r, csum (i + 1) (cell r X k) = cadd (csum i (cell r X k)) (if (row =? r) && negb (col =? 0) then
       cmul (zn 0%R (k_real k) i, zn 0%R (k_imag k) i) (X col) else c0)).
    { intros r. rewrite csum_S by lia. reflexivity. }
    destruct (Z.eqb_spec col 0) as [Ec|Ec].
    + eexists; split; [reflexivity|]. split; auto. intros r Hr. rewrite W, andb_false_r, V by auto. apply cplx_eq; cbn; ring.
    + repeat (rewrite (aget_OK 0%R) by lia; cbn [bind]).
      rewrite aset_OK by lia. cbn [bind]. rewrite (aget_OK 0%R) by (zl; lia). cbn [bind]. rewrite aset_OK by (zl; lia). cbn [bind].
      eexists; split; [reflexivity|]. split; [zl; lia|]. intros r Hr. rewrite W, <- V by auto.
      destruct (Hf (n - col - 1) ltac:(lia)) as [F1 F2].
      replace (2 * n - 2 * col - 2) with (2 * (n - col - 1)) by lia. rewrite F1, F2.
      rewrite !zn_upd by (zl; lia). 
      destruct (Z.eqb_spec row r) as [->|Hne]; cbn [andb negb].
      * zcase; try lia. apply cplx_eq; cbn; ring.
      * zcase; try lia. apply cplx_eq; cbn; ring.
  - exists d'. split; [exact E|]. intros r Hr. rewrite V by auto. fold (total r X k). rewrite T by auto.
    rewrite <- (product_bin _ _ _ _ _ (fun b => frame fre fim (b - 1))) by lia. reflexivity.
Qed.

(** *** What the filters are *)
(** The frequency of the filter of bin k is at most that of the bin and less than one part in its length below it. *)
Theorem cq_frequency c k (l := window_length (c_fs c) (c_min c) (c_bpo c) k) : usable c -> 0 <= k ->
  1 <= l /\
  (centre (c_min c) (c_bpo c) k * (1 - 1 / IZR l) < quality (c_bpo c) * c_fs c / IZR l <= centre (c_min c) (c_bpo c) k)%R.
Proof.
  intros (Hb & Hs & Hf) Hk. pose proof (window_length_bounds (c_fs c) (c_min c) (c_bpo c) k Hb Hs Hf Hk) as [W _]. fold l in W.
  split; auto. assert (P : (0 < IZR l)%R) by (apply IZR_lt; lia).
  pose proof (centre_pos (c_min c) (c_bpo c) k Hf) as Pc. set (f := centre (c_min c) (c_bpo c) k) in *.
  pose proof (Zceil_bounds (quality (c_bpo c) * c_fs c / f)) as [B1 B2]. fold f l in B1, B2. unfold l, window_length in B1, B2.
  fold f in B1, B2. change (Zceil (quality (c_bpo c) * c_fs c / f)) with l in B1, B2.
  set (q := (quality (c_bpo c) * c_fs c)%R) in *.
  assert (E : (q / f * f = q)%R) by (field; lra).
  split.
  - apply (Rmult_lt_reg_r (IZR l)); auto. replace (f * (1 - 1 / IZR l) * IZR l)%R with ((IZR l - 1) * f)%R by (field; lra).
    replace (q / IZR l * IZR l)%R with q by (field; lra). rewrite <- E at 1. now apply Rmult_lt_compat_r.
  - apply (Rmult_le_reg_r (IZR l)); auto. replace (q / IZR l * IZR l)%R with q by (field; lra).
    rewrite <- E. rewrite (Rmult_comm f). apply Rmult_le_compat_r; lra.
Qed.

(** Filters lie inside the frame: nothing is cut off. *)
Theorem cq_fits c b o k (n := q_len o) (l := window_length (c_fs c) (c_min c) (c_bpo c) k) : usable c -> cq_uses c b o -> 0 <= k ->
  1 <= l <= n /\ 0 <= n / 2 - l / 2 /\ n / 2 - l / 2 + l <= n.
Proof.
  intros U H Hk. destruct (cq_uses_inv c b o U H) as [M _]. destruct (made_len c o U M) as (Hn & Hh & Hw).
  specialize (Hw k Hk). fold l in Hw. fold n in Hw, Hh, Hn. split; auto.
  pose proof (Z.div_mod n 2). pose proof (Z.div_mod l 2). pose proof (Z.mod_pos_bound n 2). pose proof (Z.mod_pos_bound l 2).
  destruct Hh as [E|[? E]]; [|lia]. rewrite E in *. assert (l = 1) as -> by lia. cbn. lia.
Qed.

Theorem cq_time_domain c o xr xi fre fim ore oim (n := q_len o) : usable c -> cq_uses c true o ->
  n <= zlen fre -> n <= zlen fim -> q_uk o <= zlen ore -> q_uk o <= zlen oim ->
  (forall b, 0 <= b < n -> zn 0%R fre b = dft_re n xr xi b /\ zn 0%R fim b = dft_im n xr xi b) ->
  exists ore' oim', cq_process o fre fim ore oim = OK (ore', oim') /\
    forall k, 0 <= k < q_uk o -> exists err,
      frame ore' oim' k =
        cadd (csub (csum n (fun t => cmul (cconj (rotated n (atom (c_fs c) (c_min c) (c_bpo c) n k) t)) (xr ((- t) mod n), xi ((- t) mod n))))
                   (cmul (cre (1 / IZR n)) (cmul (cconj (kernel_bin (c_fs c) (c_min c) (c_bpo c) n k 0)) (frame fre fim 0)))) err /\
      (cabs err <= Rabs (c_thresh c) / IZR n * rsum (n - 1) (fun b => cabs (frame fre fim (b + 1))))%R.
Proof.
  intros U H L1 L2 L3 L4 Hx. destruct (cq_uses_inv c true o U H) as [M _]. destruct (made_len c o U M) as (Hn & _). fold n in Hn.
  destruct (cq_product c o fre fim ore oim U H) as (a & b & E & (_ & P & _) & (_ & Q & _)); auto. fold n in P, Q.
  exists a, b. split; auto. intros k Hk.
  set (x := fun t => (xr t, xi t)).
  assert (F : forall b, 0 <= b < n -> frame fre fim b = spectrum n x b).
  { intros i Hi. unfold frame. destruct (Hx i Hi) as [-> ->]. reflexivity. }
  destruct (cq_time (c_fs c) (c_min c) (c_bpo c) (c_thresh c) n k x) as (err & E1 & B); [lia|].
  exists err. split.
  - unfold frame at 1. rewrite P, Q by auto. rewrite <- surjective_pairing. rewrite F by lia. fold (x) in E1.
    change (fun t : Z => cmul (cconj (rotated n (atom (c_fs c) (c_min c) (c_bpo c) n k) t)) (xr ((- t) mod n), xi ((- t) mod n)))
      with (fun t : Z => cmul (cconj (rotated n (atom (c_fs c) (c_min c) (c_bpo c) n k) t)) (x ((- t) mod n))).
    rewrite <- E1. unfold cq_bin. apply csum_ext. intros i Hi. f_equal. apply F. lia.
  - eapply Rle_trans; [exact B|]. right. f_equal. apply rsum_ext. intros i Hi. now rewrite F by lia.
Qed.
