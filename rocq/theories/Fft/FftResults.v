(** The transforms as an owner of the objects sees them. *)
From Coq Require Import Reals ZArith Lia Lra List Bool Ring.
From Verif.Base Require Import Imp Sums RealOps Loops.
From Verif.Fft Require Import Cplx FftModel FftSpec FftBfly FftWork FftProofs FftrModel FftrProofs FftReal DctMath DctProofs.
Import ListNotations.
Open Scope Z_scope.

(** The first n places of [l] hold the values of [f], the others are as in [l0]. *)
Definition holds (n : Z) (f : Z -> R) (l l0 : list R) : Prop :=
  zlen l = zlen l0 /\ (forall k, 0 <= k < n -> zn 0%R l k = f k) /\ (forall k, n <= k -> zn 0%R l k = zn 0%R l0 k).

Lemma holds_tab n f l0 : 0 <= n <= zlen l0 -> holds n f (ztab n f ++ skipn (Z.to_nat n) l0) l0.
Proof.
  intros H. split; [|split].
  - zl; lia.
  - intros k Hk. rewrite zn_app. zl. rewrite Z.max_r by lia. destruct (Z.ltb_spec k n); [|lia]. now rewrite zn_ztab by lia.
  - intros k Hk. rewrite zn_app. zl. rewrite Z.max_r by lia. destruct (Z.ltb_spec k n); [lia|].
    rewrite zn_skipn by lia. f_equal. lia.
Qed.
Lemma holds_ext n f g l l0 : (forall k, 0 <= k < n -> f k = g k) -> holds n f l l0 -> holds n g l l0.
Proof. intros E (A & B & C). split; [|split]; auto. intros k Hk. rewrite <- E by auto. auto. Qed.

(** FFT objects of size n: built, then used any number of times with buffers of at least n entries
    ([ii = None] is a null pointer for the imaginary input). *)
Definition im_of (ii : option (list R)) (j : Z) : R := match ii with Some l => zn 0%R l j | None => 0%R end.
Definition fits (n : Z) (ii : option (list R)) : Prop := match ii with Some l => n <= zlen l | None => True end.

Inductive fft_uses (n : Z) : fft -> Prop :=
| fu_new ji jo o : zlen ji = n -> zlen jo = n -> fft_new n ji jo = OK o -> fft_uses n o
| fu_process o inv ri ii ro io o' ro' io' : fft_uses n o -> n <= zlen ri -> fits n ii -> n <= zlen ro -> n <= zlen io ->
    fft_process o inv ri ii ro io = OK (o', ro', io') -> fft_uses n o'.

Lemma fits_all n ii : fits n ii -> forall l, ii = Some l -> n <= zlen l.
Proof. intros F l ->. exact F. Qed.

Lemma fft_uses_ready n o : 1 <= n <= 2 ^ 30 -> fft_uses n o -> ready n o.
Proof.
  intros Hn. induction 1 as [ji jo o L1 L2 E|o inv ri ii ro io o' ro' io' _ IH A B C D E].
  - destruct (fft_new_ready n ji jo) as (o1 & E1 & H); auto; try lia. congruence.
  - destruct (fft_process_ok n o inv ri ii ro io) as (o1 & E1 & H); try (apply fits_all; assumption); auto. congruence.
Qed.

Theorem fft_constructed n ji jo : 1 <= n < 2 ^ 31 -> zlen ji = n -> zlen jo = n -> exists o, fft_new n ji jo = OK o.
Proof. intros Hn L1 L2. destruct (fft_new_ready n ji jo) as (o & E & _); eauto. Qed.

Theorem fft_forward_dft n o ri ii ro io :
  1 <= n <= 2 ^ 30 -> fft_uses n o -> n <= zlen ri -> fits n ii -> n <= zlen ro -> n <= zlen io ->
  exists o' ro' io', fft_process o false ri ii ro io = OK (o', ro', io') /\ fft_uses n o' /\
    holds n (dft_re n (zn 0%R ri) (im_of ii)) ro' ro /\ holds n (dft_im n (zn 0%R ri) (im_of ii)) io' io.
Proof.
  intros Hn U L1 L2 L3 L4.
  destruct (fft_process_ok n o false ri ii ro io) as (o' & E & R); try (apply fits_all; assumption); auto using fft_uses_ready.
  do 3 eexists; split; [exact E|]. split; [eapply fu_process; [exact U|..|exact E]; auto; lia|].
  split; (eapply holds_ext; [|apply holds_tab; lia]); intros k Hk; cbv beta; unfold scaled; rewrite cdft_forward by lia; reflexivity.
Qed.

Theorem fft_inverse_idft n o ri ii ro io :
  1 <= n <= 2 ^ 30 -> fft_uses n o -> n <= zlen ri -> fits n ii -> n <= zlen ro -> n <= zlen io ->
  exists o' ro' io', fft_process o true ri ii ro io = OK (o', ro', io') /\ fft_uses n o' /\
    holds n (idft_re n (zn 0%R ri) (im_of ii)) ro' ro /\ holds n (idft_im n (zn 0%R ri) (im_of ii)) io' io.
Proof.
  intros Hn U L1 L2 L3 L4.
  destruct (fft_process_ok n o true ri ii ro io) as (o' & E & R); try (apply fits_all; assumption); auto using fft_uses_ready.
  do 3 eexists; split; [exact E|]. split; [eapply fu_process; [exact U|..|exact E]; auto; lia|].
  assert (N : (IZR n <> 0)%R) by (apply not_0_IZR; lia).
  split; (eapply holds_ext; [|apply holds_tab; lia]); intros k Hk; cbv beta; unfold scaled;
    destruct (cdft_inverse n (input ri ii) k) as (E1 & E2); try lia; rewrite ?E1, ?E2;
    change (fun j => fst (input ri ii j)) with (zn 0%R ri); change (fun j => snd (input ri ii j)) with (im_of ii); field; auto.
Qed.

Theorem fft_undoes n o inv ri ii ro io ro2 io2 :
  1 <= n <= 2 ^ 30 -> fft_uses n o -> n <= zlen ri -> fits n ii -> n <= zlen ro -> n <= zlen io ->
  n <= zlen ro2 -> n <= zlen io2 ->
  exists o1 yr yi o2 zr zi, fft_process o inv ri ii ro io = OK (o1, yr, yi) /\
    fft_process o1 (negb inv) yr (Some yi) ro2 io2 = OK (o2, zr, zi) /\ fft_uses n o2 /\
    holds n (zn 0%R ri) zr ro2 /\ holds n (im_of ii) zi io2.
Proof.
  intros Hn U L1 L2 L3 L4 L5 L6.
  destruct (fft_process_ok n o inv ri ii ro io) as (o1 & E1 & R1); try (apply fits_all; assumption); auto using fft_uses_ready.
  match type of E1 with _ = OK (_, ?A, ?B) => set (yr := A) in *; set (yi := B) in * end.
  assert (Lr : zlen yr = zlen ro) by (unfold yr; zl; lia).
  assert (Li : zlen yi = zlen io) by (unfold yi; zl; lia).
  destruct (fft_process_ok n o1 (negb inv) yr (Some yi) ro2 io2) as (o2 & E2 & R2); auto; try lia.
  { intros l [= <-]. lia. }
  exists o1, yr, yi, o2. do 2 eexists. split; [exact E1|]. split; [exact E2|].
  split. { eapply fu_process; [eapply fu_process; [exact U|..|exact E1]|..|exact E2]; auto; cbn [fits]; lia. }
  assert (N : (IZR n <> 0)%R) by (apply not_0_IZR; lia).
  assert (IN : forall k, 0 <= k < n -> input yr (Some yi) k =
    cmul (cre (if inv then 1 / IZR n else 1)%R) (cdft inv n (input ri ii) k)).
  { intros k Hk. unfold input at 1. destruct (holds_tab n (fun k => scaled inv n (fst (cdft inv n (input ri ii) k))) ro ltac:(lia)) as (_ & H1 & _).
    destruct (holds_tab n (fun k => scaled inv n (snd (cdft inv n (input ri ii) k))) io ltac:(lia)) as (_ & H2 & _).
    fold yr in H1. fold yi in H2. rewrite H1, H2 by auto. apply cplx_eq; unfold scaled; destruct inv; cbn; ring. }
  assert (V : forall t, 0 <= t < n -> cdft (negb inv) n (input yr (Some yi)) t =
     cmul (cre (if inv then 1 / IZR n else 1)%R) (cmul (cre (IZR n)) (input ri ii t))).
  { intros t Ht. rewrite (cdft_ext _ n _ _ t IN). rewrite <- cdft_roundtrip with (inv := inv) by lia.
    unfold cdft at 1 3. rewrite <- csum_scal. apply csum_ext. intros j Hj. ring. }
  split; (eapply holds_ext; [|apply holds_tab; lia]); intros t Ht; cbv beta; rewrite V by auto; unfold scaled, input, im_of;
    destruct inv; cbn; field; auto.
Qed.

(** FFTReal. *)
Inductive fftreal_uses (n : Z) : fftreal -> Prop :=
| ru_new j1 j2 jc o : zlen j1 = n / 2 -> zlen j2 = n / 2 -> zlen jc = n -> fftreal_new n j1 j2 jc = OK o -> fftreal_uses n o
| ru_forward o ri ro io o' ro' io' : fftreal_uses n o -> n <= zlen ri -> n <= zlen ro -> n <= zlen io ->
    fftreal_forward o ri ro io = OK (o', ro', io') -> fftreal_uses n o'
| ru_magnitude o ri mo jio o' mo' : fftreal_uses n o -> n <= zlen ri -> n <= zlen mo -> zlen jio = n ->
    fftreal_magnitude o ri mo jio = OK (o', mo') -> fftreal_uses n o'
| ru_inverse o ri ii ro o' ro' : fftreal_uses n o -> n / 2 + 1 <= zlen ri -> n / 2 + 1 <= zlen ii -> n <= zlen ro ->
    fftreal_inverse o ri ii ro = OK (o', ro') -> fftreal_uses n o'.

Lemma even_half n : n mod 2 = 0 -> n = 2 * (n / 2).
Proof. intros H. pose proof (Z.div_mod n 2). lia. Qed.

Lemma fftreal_uses_ready n o : 2 <= n < 2 ^ 31 -> n mod 2 = 0 -> fftreal_uses n o -> r_ready (n / 2) o.
Proof.
  intros Hn H2 U. pose proof (even_half n H2) as Hm. set (m := n / 2) in *.
  induction U as [j1 j2 jc o L1 L2 L3 E|o ri ro io o' ro' io' _ IH A B C E|o ri mo jio o' mo' _ IH A B C E|o ri ii ro o' ro' _ IH A B C E].
  - destruct (fftreal_new_ready n m j1 j2 jc) as (o1 & E1 & H); auto; try lia. congruence.
  - destruct (fftreal_forward_ok m o ri ro io) as (o1 & r1 & i1 & E1 & H & _); auto; try lia. congruence.
  - destruct (fftreal_magnitude_ok m o ri mo jio) as (o1 & r1 & E1 & H & _); auto; try lia. congruence.
  - destruct (fftreal_inverse_ok m o ri ii ro) as (o1 & r1 & E1 & H & _); auto; try lia. congruence.
Qed.

Theorem fftreal_construction n j1 j2 jc : 
  (n mod 2 <> 0 -> fftreal_new n j1 j2 jc = Throw) /\
  (2 <= n < 2 ^ 31 -> n mod 2 = 0 -> zlen j1 = n / 2 -> zlen j2 = n / 2 -> zlen jc = n -> exists o, fftreal_new n j1 j2 jc = OK o).
Proof.
  split; [apply fftreal_new_odd|]. intros Hn H2 L1 L2 L3. pose proof (even_half n H2).
  destruct (fftreal_new_ready n (n / 2) j1 j2 jc) as (o & E & _); eauto; lia.
Qed.

Theorem fftreal_forward_dft n o ri ro io :
  2 <= n < 2 ^ 31 -> n mod 2 = 0 -> fftreal_uses n o -> n <= zlen ri -> n <= zlen ro -> n <= zlen io ->
  exists o' ro' io', fftreal_forward o ri ro io = OK (o', ro', io') /\ fftreal_uses n o' /\
    holds n (dft_re n (zn 0%R ri) (fun _ => 0%R)) ro' ro /\ holds n (dft_im n (zn 0%R ri) (fun _ => 0%R)) io' io.
Proof.
  intros Hn H2 U L1 L2 L3. pose proof (even_half n H2) as Hm. pose proof (fftreal_uses_ready n o Hn H2 U) as R.
  set (m := n / 2) in *.
  destruct (fftreal_forward_ok m o ri ro io) as (o' & r1 & i1 & E & _ & Lr & Li & H & V); auto; try lia.
  exists o', r1, i1. split; [auto|]. split; [eapply ru_forward; [exact U|..|exact E]; auto; lia|].
  assert (W : forall k, 0 <= k < n -> zn 0%R r1 k = dft_re n (zn 0%R ri) (fun _ => 0%R) k /\ zn 0%R i1 k = dft_im n (zn 0%R ri) (fun _ => 0%R) k).
  { intros k Hk. specialize (V k ltac:(lia)). rewrite <- Hm in V. rewrite cdft_forward in V by lia. cbn [fst snd cre] in V.
    injection V as V1 V2. auto. }
  split; (split; [|split]); auto; intros k Hk; try (apply W; auto); apply H; lia.
Qed.

Theorem fftreal_magnitude_dft n o ri mo jio :
  2 <= n < 2 ^ 31 -> n mod 2 = 0 -> fftreal_uses n o -> n <= zlen ri -> n <= zlen mo -> zlen jio = n ->
  exists o' mo', fftreal_magnitude o ri mo jio = OK (o', mo') /\ fftreal_uses n o' /\
    holds n (fun k => sqrt (dft_re n (zn 0%R ri) (fun _ => 0%R) k * dft_re n (zn 0%R ri) (fun _ => 0%R) k +
                            dft_im n (zn 0%R ri) (fun _ => 0%R) k * dft_im n (zn 0%R ri) (fun _ => 0%R) k))%R mo' mo.
Proof.
  intros Hn H2 U L1 L2 L3. pose proof (even_half n H2) as Hm. pose proof (fftreal_uses_ready n o Hn H2 U) as R.
  set (m := n / 2) in *.
  destruct (fftreal_magnitude_ok m o ri mo jio) as (o' & r1 & E & _ & Lr & H & V); auto; try lia.
  exists o', r1. split; [auto|]. split; [eapply ru_magnitude; [exact U|..|exact E]; auto; lia|].
  split; [|split]; auto; intros k Hk.
  - rewrite V by lia. cbv zeta. rewrite <- Hm, cdft_forward by lia. reflexivity.
  - apply H; lia.
Qed.

Theorem fftreal_inverse_idft n o ri ii ro :
  2 <= n < 2 ^ 31 -> n mod 2 = 0 -> fftreal_uses n o -> n / 2 + 1 <= zlen ri -> n / 2 + 1 <= zlen ii -> n <= zlen ro ->
  exists o' ro', fftreal_inverse o ri ii ro = OK (o', ro') /\ fftreal_uses n o' /\
    holds n (idft_re n (herm_re n (zn 0%R ri)) (herm_im n (zn 0%R ii))) ro' ro.
Proof.
  intros Hn H2 U L1 L2 L3. pose proof (even_half n H2) as Hm. pose proof (fftreal_uses_ready n o Hn H2 U) as R.
  pose proof (eq_refl (n / 2)) as Em. set (m := n / 2) in Em at 2. clearbody m.
  rewrite Em in *.
  destruct (fftreal_inverse_ok m o ri ii ro) as (o' & r1 & E & _ & Lr & H & V); auto; try lia.
  exists o', r1. split; [auto|]. split; [eapply ru_inverse; [exact U|..|exact E]; auto; lia|].
  split; [|split]; auto; intros t Ht.
  2: apply H; lia.
  rewrite V by lia. rewrite <- Hm.
  assert (N : (IZR n <> 0)%R) by (apply not_0_IZR; lia).
  rewrite (cdft_ext true n _ (fun k => (herm_re n (zn 0%R ri) k, herm_im n (zn 0%R ii) k))).
  2:{ intros k Hk. unfold herm, herm_re, herm_im. rewrite Em.
      destruct (Z.eqb_spec k 0) as [->|]; cbn [orb].
      - destruct (Z.leb_spec 0 m); [reflexivity|lia].
      - destruct (Z.eqb_spec k m) as [->|].
        + destruct (Z.leb_spec m m); [reflexivity|lia].
        + destruct (Z.ltb_spec k m), (Z.leb_spec k m); try lia; auto. rewrite <- Hm. reflexivity. }
  destruct (cdft_inverse n (fun k => (herm_re n (zn 0%R ri) k, herm_im n (zn 0%R ii) k)) t) as (-> & _); [lia|].
  change (fun j => fst (herm_re n (zn 0%R ri) j, herm_im n (zn 0%R ii) j)) with (herm_re n (zn 0%R ri)).
  change (fun j => snd (herm_re n (zn 0%R ri) j, herm_im n (zn 0%R ii) j)) with (herm_im n (zn 0%R ii)). field. auto.
Qed.

(** A spectrum which comes from a real signal is its own Hermitian extension. *)
Lemma herm_of_real m (x : Z -> R) F k : 1 <= m -> 0 <= k < 2 * m ->
  (forall j, 0 <= j < 2 * m -> F j = cdft false (2 * m) (fun i => cre (x i)) j) ->
  herm m F k = cdft false (2 * m) (fun i => cre (x i)) k.
Proof.
  intros Hm Hk HF. set (X := cdft false (2 * m) (fun i => cre (x i))) in *.
  assert (C : forall j, X (2 * m - j) = cconj (X j)) by (intros; apply cdft_real_conj; lia).
  assert (R : forall j, X j = cconj (X j) -> cre (fst (X j)) = X j).
  { intros j Hj. apply (f_equal snd) in Hj. cbn in Hj. apply cplx_eq; cbn; lra. }
  unfold herm. destruct (Z.eqb_spec k 0) as [->|].
  - rewrite HF by lia. apply R. unfold X, cdft. rewrite <- csum_conj. apply csum_ext. intros j Hj.
    replace (sg false * (0 * j)) with 0 by lia. rewrite root_0. apply cplx_eq; cbn; ring.
  - destruct (Z.eqb_spec k m) as [->|].
    + rewrite HF by lia. apply R. rewrite <- C. f_equal. lia.
    + destruct (Z.ltb_spec k m); [now rewrite HF by lia|]. rewrite HF by lia. rewrite <- C. f_equal. lia.
Qed.

Theorem fftreal_undoes n o ri ro io ro2 :
  2 <= n < 2 ^ 31 -> n mod 2 = 0 -> fftreal_uses n o -> n <= zlen ri -> n <= zlen ro -> n <= zlen io -> n <= zlen ro2 ->
  exists o1 yr yi o2 zr, fftreal_forward o ri ro io = OK (o1, yr, yi) /\ fftreal_inverse o1 yr yi ro2 = OK (o2, zr) /\
    fftreal_uses n o2 /\ holds n (zn 0%R ri) zr ro2.
Proof.
  intros Hn H2 U L1 L2 L3 L4. pose proof (even_half n H2) as Hm. pose proof (fftreal_uses_ready n o Hn H2 U) as R.
  pose proof (eq_refl (n / 2)) as Em. set (m := n / 2) in Em at 2. clearbody m.
  rewrite Em in *.
  destruct (fftreal_forward_ok m o ri ro io) as (o1 & yr & yi & E1 & R1 & Lr & Li & _ & V); auto; try lia.
  destruct (fftreal_inverse_ok m o1 yr yi ro2) as (o2 & zr & E2 & R2 & Lz & H & W); auto; try lia.
  exists o1, yr, yi, o2, zr. split; [auto|]. split; [auto|].
  split. { eapply ru_inverse; [eapply ru_forward; [exact U|..|exact E1]|..|exact E2]; auto; lia. }
  split; [|split]; auto; intros t Ht.
  2: apply H; lia.
  rewrite W by lia.
  rewrite (cdft_ext true (2 * m) _ (cdft false (2 * m) (fun i => cre (zn 0%R ri i)))).
  2:{ intros k Hk. apply herm_of_real; auto; lia. }
  rewrite (cdft_roundtrip false) by lia. rewrite <- Hm.
  assert (N : (IZR n <> 0)%R) by (apply not_0_IZR; lia). cbn. field. auto.
Qed.

(** DCT. *)
Inductive dct_uses (n : Z) : dct -> Prop :=
| du_new j1 j2 jc d : zlen j1 = 2 * n -> zlen j2 = 2 * n -> zlen jc = 4 * n -> dct_new n j1 j2 jc = OK d -> dct_uses n d
| du_forward d x out d' out' : dct_uses n d -> n <= zlen x -> n <= zlen out -> dct_forward d x out = OK (d', out') -> dct_uses n d'
| du_forward_unitary d x out d' out' : dct_uses n d -> n <= zlen x -> n <= zlen out ->
    dct_forward_unitary d x out = OK (d', out') -> dct_uses n d'
| du_inverse d x out d' out' : dct_uses n d -> n <= zlen x -> n <= zlen out -> dct_inverse d x out = OK (d', out') -> dct_uses n d'
| du_inverse_unitary d x out d' out' : dct_uses n d -> n <= zlen x -> n <= zlen out ->
    dct_inverse_unitary d x out = OK (d', out') -> dct_uses n d'.

Lemma dct_uses_ready n d : 1 <= n < 2 ^ 29 -> dct_uses n d -> d_ready n d.
Proof.
  intros Hn U. induction U as [j1 j2 jc d L1 L2 L3 E|d x out d' out' _ IH A B E|d x out d' out' _ IH A B E|d x out d' out' _ IH A B E|d x out d' out' _ IH A B E].
  - destruct (dct_new_ready n j1 j2 jc) as (d1 & E1 & H); auto. congruence.
  - destruct (dct_forward_ok n d x out) as (d1 & E1 & H); auto. congruence.
  - destruct (dct_forward_unitary_ok n d x out) as (d1 & E1 & H); auto. congruence.
  - destruct (dct_inverse_ok n d x out) as (d1 & E1 & H); auto. congruence.
  - destruct (dct_inverse_unitary_ok n d x out) as (d1 & E1 & H); auto. congruence.
Qed.

Theorem dct_constructed n j1 j2 jc : 1 <= n < 2 ^ 29 -> zlen j1 = 2 * n -> zlen j2 = 2 * n -> zlen jc = 4 * n ->
  exists d, dct_new n j1 j2 jc = OK d.
Proof. intros. destruct (dct_new_ready n j1 j2 jc) as (d & E & _); eauto. Qed.

Theorem dct_forward_value n d x out : 1 <= n < 2 ^ 29 -> dct_uses n d -> n <= zlen x -> n <= zlen out ->
  exists d' out', dct_forward d x out = OK (d', out') /\ dct_uses n d' /\ holds n (dct2 n (zn 0%R x)) out' out.
Proof.
  intros Hn U L1 L2. destruct (dct_forward_ok n d x out) as (d' & E & _); auto using dct_uses_ready.
  do 2 eexists; split; [exact E|]. split; [eapply du_forward; [exact U|..|exact E]; auto; lia|]. apply holds_tab. lia.
Qed.

Theorem dct_inverse_value n d y out : 1 <= n < 2 ^ 29 -> dct_uses n d -> n <= zlen y -> n <= zlen out ->
  exists d' out', dct_inverse d y out = OK (d', out') /\ dct_uses n d' /\ holds n (idct2 n (zn 0%R y)) out' out.
Proof.
  intros Hn U L1 L2. destruct (dct_inverse_ok n d y out) as (d' & E & _); auto using dct_uses_ready.
  do 2 eexists; split; [exact E|]. split; [eapply du_inverse; [exact U|..|exact E]; auto; lia|]. apply holds_tab. lia.
Qed.

Theorem dct_unitary_value n d x out : 1 <= n < 2 ^ 29 -> dct_uses n d -> n <= zlen x -> n <= zlen out ->
  exists d' out', dct_forward_unitary d x out = OK (d', out') /\ dct_uses n d' /\
    holds n (dct2_unitary n (zn 0%R x)) out' out /\
    rsum n (fun k => zn 0 out' k * zn 0 out' k)%R = rsum n (fun j => zn 0 x j * zn 0 x j)%R.
Proof.
  intros Hn U L1 L2. destruct (dct_forward_unitary_ok n d x out) as (d' & E & _); auto using dct_uses_ready.
  pose proof (holds_tab n (dct2_unitary n (zn 0%R x)) out ltac:(lia)) as H.
  do 2 eexists; split; [exact E|]. split; [eapply du_forward_unitary; [exact U|..|exact E]; auto; lia|]. split; [exact H|].
  destruct H as (_ & H & _). rewrite <- (dct2_unitary_energy n (zn 0%R x)) by lia.
  apply rsum_ext. intros k Hk. now rewrite H.
Qed.

Section Pairs.
  Variables (n : Z) (d : dct) (x out out2 : list R).
  Hypotheses (Hn : 1 <= n < 2 ^ 29) (U : dct_uses n d) (Lx : n <= zlen x) (Lo : n <= zlen out) (Lo2 : n <= zlen out2).

  Theorem dct_inverse_of_forward : exists d1 y d2 z, dct_forward d x out = OK (d1, y) /\ dct_inverse d1 y out2 = OK (d2, z) /\
    dct_uses n d2 /\ holds n (zn 0%R x) z out2.
  Proof.
    destruct (dct_forward_value n d x out Hn U Lx Lo) as (d1 & y & E1 & U1 & Y1 & Y2 & _).
    destruct (dct_inverse_value n d1 y out2 Hn U1) as (d2 & z & E2 & U2 & Z0); try lia.
    exists d1, y, d2, z. repeat split; auto; try (apply Z0). intros k Hk. rewrite (proj1 (proj2 Z0)) by auto.
    rewrite (idct2_ext n _ (dct2 n (zn 0%R x))) by (auto; lia). apply idct2_dct2; lia.
  Qed.
  Theorem dct_forward_of_inverse : exists d1 y d2 z, dct_inverse d x out = OK (d1, y) /\ dct_forward d1 y out2 = OK (d2, z) /\
    dct_uses n d2 /\ holds n (zn 0%R x) z out2.
  Proof.
    destruct (dct_inverse_value n d x out Hn U Lx Lo) as (d1 & y & E1 & U1 & Y1 & Y2 & _).
    destruct (dct_forward_value n d1 y out2 Hn U1) as (d2 & z & E2 & U2 & Z0); try lia.
    exists d1, y, d2, z. repeat split; auto; try (apply Z0). intros k Hk. rewrite (proj1 (proj2 Z0)) by auto.
    rewrite (dct2_ext n _ (idct2 n (zn 0%R x))) by (auto; lia). apply dct2_idct2; lia.
  Qed.

  Lemma dct_inverse_unitary_value d0 y o : dct_uses n d0 -> n <= zlen y -> n <= zlen o ->
    exists d' out', dct_inverse_unitary d0 y o = OK (d', out') /\ dct_uses n d' /\ holds n (idct2_unitary n (zn 0%R y)) out' o.
  Proof.
    intros U0 L1 L2. destruct (dct_inverse_unitary_ok n d0 y o) as (d' & E & _); auto using dct_uses_ready.
    do 2 eexists; split; [exact E|]. split; [eapply du_inverse_unitary; [exact U0|..|exact E]; auto; lia|]. apply holds_tab. lia.
  Qed.

  Theorem dct_unitary_inverse_of_forward : exists d1 y d2 z, dct_forward_unitary d x out = OK (d1, y) /\
    dct_inverse_unitary d1 y out2 = OK (d2, z) /\ dct_uses n d2 /\ holds n (zn 0%R x) z out2.
  Proof.
    destruct (dct_unitary_value n d x out Hn U Lx Lo) as (d1 & y & E1 & U1 & (Y1 & Y2 & _) & _).
    destruct (dct_inverse_unitary_value d1 y out2 U1) as (d2 & z & E2 & U2 & Z0); try lia.
    exists d1, y, d2, z. repeat split; auto; try (apply Z0). intros k Hk. rewrite (proj1 (proj2 Z0)) by auto.
    rewrite (idct2_unitary_ext n _ (dct2_unitary n (zn 0%R x))) by (auto; lia). apply idct2_unitary_inv; lia.
  Qed.
  Theorem dct_unitary_forward_of_inverse : exists d1 y d2 z, dct_inverse_unitary d x out = OK (d1, y) /\
    dct_forward_unitary d1 y out2 = OK (d2, z) /\ dct_uses n d2 /\ holds n (zn 0%R x) z out2.
  Proof.
    destruct (dct_inverse_unitary_value d x out U Lx Lo) as (d1 & y & E1 & U1 & Y1 & Y2 & _).
    destruct (dct_unitary_value n d1 y out2 Hn U1) as (d2 & z & E2 & U2 & Z0 & _); try lia.
    exists d1, y, d2, z. repeat split; auto; try (apply Z0). intros k Hk. rewrite (proj1 (proj2 Z0)) by auto.
    rewrite (dct2_unitary_ext n _ (idct2_unitary n (zn 0%R x))) by (auto; lia). apply dct2_unitary_inv; lia.
  Qed.
End Pairs.
