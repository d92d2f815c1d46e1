(** FFT::process computes the discrete Fourier transform and its inverse. *)
From Coq Require Import Reals ZArith Lia Lra List Bool Ring.
From Verif.Base Require Import Imp Sums RealOps Loops.
From Verif.Fft Require Import Cplx FftModel FftSpec FftBfly FftWork.
Import ListNotations.
Open Scope Z_scope.

(** The transform of [x], in complex form. *)
Definition cdft (inv : bool) (n : Z) (x : Z -> cplx) (k : Z) : cplx :=
  csum n (fun j => cmul (x j) (root n (sg inv * (k * j)))).

Lemma cdft_ext inv n x y k : (forall j, 0 <= j < n -> x j = y j) -> cdft inv n x k = cdft inv n y k.
Proof. intros H. apply csum_ext. intros j Hj. now rewrite H. Qed.

Lemma kiss_fft_alloc_ok n inv : 1 <= n < 2 ^ 31 ->
  exists st, kiss_fft_alloc n inv = OK st /\ nfft st = n /\ inverse st = inv /\ chain n (factors st) /\
    zlen (twiddles st) = n /\
    (forall i, 0 <= i < n -> zn c0 (twiddles st) i = root n (sg inv * i)).
Proof.
  intros Hn. unfold kiss_fft_alloc. destruct (kf_factor_ok n Hn) as (facs & E & C & _). rewrite E. ret.
  eexists; split; [reflexivity|]. cbn [nfft inverse factors twiddles]. splits; auto.
  - zl; lia.
  - intros i Hi. rewrite zn_ztab by lia. unfold root, cis. cbv zeta.
    assert (P : (if inv then -2 * PI * IZR i / IZR n * -1 else -2 * PI * IZR i / IZR n)%R = (2 * PI * IZR (sg inv * i) / IZR n)%R).
    { rewrite mult_IZR. destruct inv; cbn [sg]; field; apply not_0_IZR; lia. }
    now rewrite P.
Qed.

Lemma kiss_fft_ok n inv st fin fout :
  1 <= n <= 2 ^ 30 -> kiss_fft_alloc n inv = OK st -> n <= zlen fin -> zlen fout = n ->
  kiss_fft st fin fout = OK (ztab n (cdft inv n (zn c0 fin))).
Proof.
  intros Hn A Li Lo.
  destruct (kiss_fft_alloc_ok n inv) as (st' & E & N1 & I1 & C1 & L1 & T1); [lia|].
  rewrite A in E. injection E as <-.
  unfold kiss_fft.
  destruct (kf_work_ok st) with (facs := factors st) (n := n) (F := fout) (off := 0) (f := fin) (foff := 0) (fstride := 1) (istr := 1) (L := n)
    as (F' & E & W1 & W2 & W3); rewrite ?N1, ?I1; auto; try lia.
  rewrite E. f_equal. apply (zn_ext c0); [zl; lia|]. intros k Hk.
  rewrite zn_ztab by lia. specialize (W3 k ltac:(lia)). change (0 + k) with k in W3. rewrite W3.
  unfold cdft. apply csum_ext. intros j Hj. rewrite I1, N1. f_equal; f_equal; lia.
Qed.

(** An FFT object: built by the constructor, then used by any number of calls. *)
Definition ready (n : Z) (o : fft) : Prop :=
  m_n o = n /\ kiss_fft_alloc n false = OK (m_planf o) /\ kiss_fft_alloc n true = OK (m_plani o) /\
  zlen (m_kin o) = n /\ zlen (m_kout o) = n.

Lemma fft_new_ready n ji jo : 1 <= n < 2 ^ 31 -> zlen ji = n -> zlen jo = n ->
  exists o, fft_new n ji jo = OK o /\ ready n o.
Proof.
  intros Hn L1 L2. unfold fft_new.
  destruct (kiss_fft_alloc_ok n false Hn) as (f & Ef & _). destruct (kiss_fft_alloc_ok n true Hn) as (i & Ei & _).
  rewrite Ef, Ei. ret. ret. eexists; split; [reflexivity|]. unfold ready; cbn. splits; auto.
Qed.

(** Two output arrays at least as long as the loop. *)
Lemma for_up_out2 {A B C} n (e : Z -> res C) (g : Z -> C) (a : C -> A) (b : C -> B) l1 l2 :
  0 <= n <= zlen l1 -> n <= zlen l2 -> (forall i, 0 <= i < n -> e i = OK (g i)) ->
  for_up 0 n (fun i '(s1, s2) => v <- e i ;; s1 <- aset s1 i (a v) ;; s2 <- aset s2 i (b v) ;; OK (s1, s2)) (l1, l2)
  = OK (ztab n (fun i => a (g i)) ++ skipn (Z.to_nat n) l1, ztab n (fun i => b (g i)) ++ skipn (Z.to_nat n) l2).
Proof.
  intros Hn N2 H1.
  match goal with |- for_up 0 n ?F ?S = _ =>
    destruct (for_up_inv (fun i s => s = (ztab i (fun i => a (g i)) ++ skipn (Z.to_nat i) l1, ztab i (fun i => b (g i)) ++ skipn (Z.to_nat i) l2))
      0 n F S) as (s & E & ->); [lia|reflexivity| |exact E] end.
  intros i s Hi ->. rewrite H1 by auto. ret. rewrite !aset_OK by (zl; lia). ret. ret.
  eexists; split; [reflexivity|].
  assert (G : forall D (h : Z -> D) l, n <= zlen l ->
    upd (ztab i h ++ skipn (Z.to_nat i) l) (Z.to_nat i) (h i) = ztab (i + 1) h ++ skipn (Z.to_nat (i + 1)) l).
  { intros D h [|c l0] L; [zl; lia|]. set (l := c :: l0) in *. apply (zn_ext c); [zl; lia|]. intros k Hk. zl.
    rewrite zn_upd by (zl; lia). rewrite !zn_app. zl. rewrite !Z.max_r by lia.
    zcase; subst; try lia; rewrite ?zn_ztab by lia; auto. rewrite !zn_skipn by lia. f_equal. lia. }
  rewrite (G A (fun i => a (g i))), (G B (fun i => b (g i))) by lia. reflexivity.
Qed.

Definition input (ri : list R) (ii : option (list R)) (j : Z) : cplx :=
  (zn 0%R ri j, match ii with Some ii => zn 0%R ii j | None => 0%R end).

Definition scaled (inv : bool) (n : Z) (v : R) : R := if inv then (v * (1 / IZR n))%R else v.

Lemma fft_process_ok n o inv ri ii ro io :
  1 <= n <= 2 ^ 30 -> ready n o -> n <= zlen ri -> (forall l, ii = Some l -> n <= zlen l) ->
  n <= zlen ro -> n <= zlen io ->
  exists o', fft_process o inv ri ii ro io =
    OK (o', ztab n (fun k => scaled inv n (fst (cdft inv n (input ri ii) k))) ++ skipn (Z.to_nat n) ro,
            ztab n (fun k => scaled inv n (snd (cdft inv n (input ri ii) k))) ++ skipn (Z.to_nat n) io) /\
    ready n o'.
Proof.
  intros Hn (R1 & R2 & R3 & R4 & R5) Lr Li Lo1 Lo2. unfold fft_process. rewrite R1.
  rewrite (for_up_tab n _ (input ri ii)).
  2: lia.
  2:{ intros i s Hi _ _ _. rewrite (aget_OK 0%R) by lia. ret. unfold input. destruct ii as [l|].
      - rewrite (aget_OK 0%R) by (specialize (Li l eq_refl); lia). ret. reflexivity.
      - ret. reflexivity. }
  ret. rewrite skipn_zlen, app_nil_r by lia.
  rewrite (kiss_fft_ok n inv); auto.
  2: destruct inv; auto.
  2: zl; lia.
  ret.
  match goal with |- context [for_up 0 n ?B (ro, io)] =>
    replace (for_up 0 n B (ro, io)) with (OK (ztab n (fun k => scaled inv n (fst (cdft inv n (input ri ii) k))) ++ skipn (Z.to_nat n) ro,
            ztab n (fun k => scaled inv n (snd (cdft inv n (input ri ii) k))) ++ skipn (Z.to_nat n) io)) end.
  - ret. eexists; split; [reflexivity|]. unfold ready; cbn. splits; auto; zl; lia.
  - symmetry.
    apply (for_up_out2 n (aget (ztab n (cdft inv n (zn c0 (ztab n (input ri ii)))))) (cdft inv n (input ri ii)) (fun v => scaled inv n (fst v)) (fun v => scaled inv n (snd v))); auto; try lia.
    intros i Hi. rewrite (aget_OK c0) by (zl; lia). rewrite zn_ztab by lia. f_equal.
    apply cdft_ext. intros j Hj. now rewrite zn_ztab by lia.
Qed.

(** *** In terms of the specification *)
Lemma root_angle n j k : n <> 0 ->
  root n (k * j) = (cos (angle n j k), sin (angle n j k)) /\ root n (-1 * (k * j)) = (cos (angle n j k), (- sin (angle n j k))%R).
Proof.
  intros Hn. assert (E : root n (k * j) = (cos (angle n j k), sin (angle n j k))).
  { unfold root, cis, angle. rewrite mult_IZR. replace (2 * PI * (IZR k * IZR j))%R with (2 * PI * IZR j * IZR k)%R by ring. reflexivity. }
  split; auto. replace (-1 * (k * j)) with (- (k * j)) by lia. rewrite root_opp, E. reflexivity.
Qed.

Lemma cdft_forward n x k : 1 <= n ->
  cdft false n x k = (dft_re n (fun j => fst (x j)) (fun j => snd (x j)) k, dft_im n (fun j => fst (x j)) (fun j => snd (x j)) k).
Proof.
  intros Hn. unfold cdft, csum, dft_re, dft_im. f_equal; apply rsum_ext; intros j Hj; cbn [sg];
    rewrite (proj2 (root_angle n j k ltac:(lia))); cbn; ring.
Qed.

Lemma cdft_inverse n x k : 1 <= n ->
  fst (cdft true n x k) = (idft_re n (fun j => fst (x j)) (fun j => snd (x j)) k * IZR n)%R /\
  snd (cdft true n x k) = (idft_im n (fun j => fst (x j)) (fun j => snd (x j)) k * IZR n)%R.
Proof.
  intros Hn. assert (IZR n <> 0)%R by (apply not_0_IZR; lia).
  unfold cdft, csum, idft_re, idft_im; cbn [fst snd sg]. split.
  - unfold Rdiv. rewrite Rmult_assoc, Rinv_l, Rmult_1_r by auto. apply rsum_ext; intros j Hj.
    replace (1 * (k * j)) with (k * j) by lia. rewrite (proj1 (root_angle n j k ltac:(lia))); cbn; ring.
  - unfold Rdiv. rewrite Rmult_assoc, Rinv_l, Rmult_1_r by auto. apply rsum_ext; intros j Hj.
    replace (1 * (k * j)) with (k * j) by lia. rewrite (proj1 (root_angle n j k ltac:(lia))); cbn; ring.
Qed.

(** Each transform undoes the other up to the factor n. *)
Lemma cdft_roundtrip inv n x t : 1 <= n -> 0 <= t < n ->
  cdft (negb inv) n (cdft inv n x) t = cmul (cre (IZR n)) (x t).
Proof.
  intros Hn Ht. unfold cdft at 1.
  rewrite (csum_ext n _ (fun k => csum n (fun j => cmul (x j) (root n (k * (sg inv * (j - t))))))).
  2:{ intros k Hk. unfold cdft. rewrite <- csum_scal_r. apply csum_ext. intros j Hj.
      replace (k * (sg inv * (j - t))) with (sg inv * (k * j) + sg (negb inv) * (t * k)) by (destruct inv; cbn [sg negb]; lia).
      rewrite root_add. ring. }
  rewrite csum_swap.
  rewrite (csum_single n _ t Ht).
  - rewrite (csum_scal n (x t)). rewrite (root_sum n) by lia.
    replace (sg inv * (t - t)) with 0 by lia. rewrite Z.mod_0_l by lia. change (0 =? 0) with true. cbv iota. ring.
  - intros j Hj Ne. rewrite (csum_scal n (x j)). rewrite (root_sum n) by lia.
    destruct (Z.eqb_spec ((sg inv * (j - t)) mod n) 0) as [E|E]; [|ring].
    exfalso. apply Z.mod_divide in E; [|lia]. destruct E as (e & E).
    assert (H : j - t = sg inv * e * n) by (destruct inv; cbn [sg] in *; lia). 
    assert (sg inv * e = 0 \/ sg inv * e <= -1 \/ 1 <= sg inv * e) by lia. nia.
Qed.

Lemma cdft_scaled inv n x k : 1 <= n ->
  cdft true n (fun j => (scaled inv n (fst (x j)), scaled inv n (snd (x j)))) k =
  (scaled inv n (fst (cdft true n x k)), scaled inv n (snd (cdft true n x k))).
Proof.
  intros Hn. destruct inv; [|unfold scaled; apply cplx_eq; cbn; unfold cdft; cbn; apply rsum_ext; intros; auto].
  unfold scaled. transitivity (cmul (cre (1 / IZR n)%R) (cdft true n x k)).
  - unfold cdft. rewrite <- csum_scal. apply csum_ext. intros j Hj. apply cplx_eq; cbn; ring.
  - apply cplx_eq; cbn; ring.
Qed.
