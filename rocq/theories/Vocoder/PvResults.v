(** The phase vocoder as its owner sees it. *)
From Coq Require Import Reals ZArith Lia Lra List Bool Ring.
From Verif.Base Require Import Imp Sums RealOps Loops.
From Verif.Maths Require Import RealModel RealSpec RealProofs.
From Verif.Fft Require Import Cplx FftModel FftSpec FftBfly FftWork FftProofs FftrModel FftrProofs FftReal FftResults.
From Verif.Vocoder Require Import PvModel PvSpec PvProofs.
Import ListNotations.
Open Scope Z_scope.

(** The object after any number of calls, with the phases and unwrapped phases returned by the last
    frame; before the first frame and after a reset, minus one advance stands for both. *)
Inductive pv_run (n hop : Z) : pv -> (Z -> R) -> (Z -> R) -> Prop :=
| pr_new j1 j2 jc jt jr ji o : zlen j1 = n / 2 -> zlen j2 = n / 2 -> zlen jc = n -> zlen jt = n -> zlen jr = n -> zlen ji = n ->
    pv_new n hop j1 j2 jc jt jr ji = OK o -> pv_run n hop o (fun k => - advance n hop k)%R (fun k => - advance n hop k)%R
| pr_reset o th un o' : pv_run n hop o th un -> pv_reset o = OK o' ->
    pv_run n hop o' (fun k => - advance n hop k)%R (fun k => - advance n hop k)%R
| pr_time o th un src mag theta out o' mag' theta' out' : pv_run n hop o th un ->
    n <= zlen src -> n / 2 + 1 <= zlen mag -> n / 2 + 1 <= zlen theta -> n / 2 + 1 <= zlen out ->
    pv_time o src mag theta out = OK (o', mag', theta', out') -> pv_run n hop o' (zn 0%R theta') (zn 0%R out')
| pr_freq o th un re im mag theta out o' mag' theta' out' : pv_run n hop o th un ->
    n / 2 + 1 <= zlen re -> n / 2 + 1 <= zlen im -> n / 2 + 1 <= zlen mag -> n / 2 + 1 <= zlen theta -> n / 2 + 1 <= zlen out ->
    pv_freq o re im mag theta out = OK (o', mag', theta', out') -> pv_run n hop o' (zn 0%R theta') (zn 0%R out').

(** Nothing from place n on was written. *)
Definition kept (n : Z) (l l0 : list R) : Prop := zlen l = zlen l0 /\ forall k, n <= k -> zn 0%R l k = zn 0%R l0 k.
Lemma holds_kept n f l l0 : holds n f l l0 -> kept n l l0.
Proof. intros (A & _ & B). split; auto. Qed.

Definition pv_ok (m hop : Z) (o : pv) (th un : Z -> R) : Prop :=
  p_n o = 2 * m /\ p_hop o = hop /\ r_ready m (p_fft o) /\ zlen (p_time o) = 2 * m /\ zlen (p_real o) = 2 * m /\
  zlen (p_imag o) = 2 * m /\ zlen (p_phase o) = m + 1 /\ zlen (p_unwrapped o) = m + 1 /\
  (forall k, 0 <= k <= m -> zn 0%R (p_phase o) k = th k /\ zn 0%R (p_unwrapped o) k = un k /\ same_angle (un k) (th k)).

Lemma reset_ok m hop o : 1 <= m -> p_n o = 2 * m -> p_hop o = hop -> r_ready m (p_fft o) -> zlen (p_time o) = 2 * m ->
  zlen (p_real o) = 2 * m -> zlen (p_imag o) = 2 * m -> zlen (p_phase o) = m + 1 -> zlen (p_unwrapped o) = m + 1 ->
  exists o', pv_reset o = OK o' /\
    pv_ok m hop o' (fun k => - advance (2 * m) hop k)%R (fun k => - advance (2 * m) hop k)%R.
Proof.
  intros Hm N1 N2 R L1 L2 L3 L4 L5. unfold pv_reset. rewrite N1, N2, half_2m.
  rewrite (for_up_out2 (m + 1) (fun i => OK i) (fun i => i) (fun i => - pv_omega (2 * m) hop i)%R (fun i => - pv_omega (2 * m) hop i)%R) by (auto; lia).
  ret. eexists; split; [reflexivity|]. rewrite !skipn_zlen, !app_nil_r by lia.
  unfold pv_ok; cbn [p_n p_hop p_fft p_time p_real p_imag p_phase p_unwrapped]. splits; auto; try (zl; lia).
  intros k Hk. rewrite !zn_ztab by lia. splits; auto. exists 0. lra.
Qed.

Lemma new_ok m hop j1 j2 jc jt jr ji : 1 <= m < 2 ^ 30 -> zlen j1 = m -> zlen j2 = m -> zlen jc = 2 * m ->
  zlen jt = 2 * m -> zlen jr = 2 * m -> zlen ji = 2 * m ->
  exists o, pv_new (2 * m) hop j1 j2 jc jt jr ji = OK o /\
    pv_ok m hop o (fun k => - advance (2 * m) hop k)%R (fun k => - advance (2 * m) hop k)%R.
Proof.
  intros Hm L1 L2 L3 L4 L5 L6. unfold pv_new.
  destruct (fftreal_new_ready (2 * m) m j1 j2 jc) as (f & E & R); auto; try lia. rewrite E. ret.
  rewrite half_2m. apply reset_ok; auto; try lia; cbn [p_phase p_unwrapped]; zl; lia.
Qed.

(** The end of both process functions. *)
Lemma finish_ok m hop o th un f tm re im mag theta out :
  1 <= m -> pv_ok m hop o th un -> r_ready m f -> zlen tm = 2 * m -> zlen re = 2 * m -> zlen im = 2 * m ->
  m + 1 <= zlen mag -> m + 1 <= zlen theta -> m + 1 <= zlen out ->
  exists o' mag' theta' out', pv_finish o f tm re im mag theta out = OK (o', mag', theta', out') /\
    pv_ok m hop o' (zn 0%R theta') (zn 0%R out') /\
    kept (m + 1) mag' mag /\ kept (m + 1) theta' theta /\ kept (m + 1) out' out /\
    (forall k, 0 <= k <= m -> polar (zn 0%R re k) (zn 0%R im k) (zn 0%R mag' k) (zn 0%R theta' k) /\
       unwraps (2 * m) hop k (un k) (zn 0%R theta' k) (zn 0%R out' k)).
Proof.
  intros Hm (N1 & N2 & R0 & T1 & T2 & T3 & T4 & T5 & I) Rf L1 L2 L3 M1 M2 M3. unfold pv_finish.
  unfold pv_magnitudes, pv_phases. rewrite N1, N2, half_2m.
  rewrite (for_up_tab (m + 1) _ (fun k => sqrt (zn 0 re k * zn 0 re k + zn 0 im k * zn 0 im k))%R) by
    (try lia; intros i s Hi Ls _ _; rewrite !(aget_OK 0%R) by lia; ret; ret; reflexivity).
  ret.
  rewrite (for_up_tab (m + 1) _ (fun k => atan2 (zn 0%R im k) (zn 0%R re k))) by
    (try lia; intros i s Hi Ls _ _; rewrite !(aget_OK 0%R) by lia; ret; ret; reflexivity).
  ret.
  pose proof (holds_tab (m + 1) (fun k => sqrt (zn 0 re k * zn 0 re k + zn 0 im k * zn 0 im k))%R mag ltac:(lia)) as Hmag.
  pose proof (holds_tab (m + 1) (fun k => atan2 (zn 0%R im k) (zn 0%R re k)) theta ltac:(lia)) as Htheta.
  set (mag' := _ ++ skipn _ mag) in *. set (theta' := _ ++ skipn _ theta) in *.
  clearbody mag' theta'. cbv beta in Hmag, Htheta.
  assert (Lt : zlen theta' = zlen theta) by apply Htheta.
  set (u := fun k => (un k + advance (2 * m) hop k + princarg (zn 0 theta' k - (th k + advance (2 * m) hop k)))%R).
  unfold pv_unwrap. rewrite half_2m.
  match goal with |- context [for_up 0 (m + 1) ?B ?S] =>
    destruct (for_up_inv (fun i (x : list R * list R * list R) => let '(ph, un', o2) := x in
      zlen ph = m + 1 /\ zlen un' = m + 1 /\ zlen o2 = zlen out /\
      (forall k, 0 <= k < i -> zn 0%R ph k = zn 0%R theta' k /\ zn 0%R un' k = u k /\ zn 0%R o2 k = u k) /\
      (forall k, i <= k <= m -> zn 0%R ph k = th k /\ zn 0%R un' k = un k) /\
      (forall k, i <= k -> zn 0%R o2 k = zn 0%R out k)) 0 (m + 1) B S)
      as (((ph & un') & o2) & E & I1 & I2 & I3 & I4 & I5 & I6); [lia| | |] end.
  - splits; auto; try lia. intros k Hk. destruct (I k) as (? & ? & _); auto.
  - intros i ((ph & un') & o2) Hi (I1 & I2 & I3 & I4 & I5 & I6).
    rewrite !(aget_OK 0%R) by lia. ret. ret. ret. rewrite aset_OK by lia. ret. rewrite aset_OK by lia. ret.
    rewrite (aget_OK 0%R) by (zl; lia). ret. rewrite zn_upd by lia. rewrite Z.eqb_refl. rewrite aset_OK by lia. ret.
    eexists; split; [reflexivity|]. cbv beta iota. destruct (I5 i) as (P1 & P2); [lia|].
    splits; try (zl; lia).
    + intros k Hk. rewrite !zn_upd by lia. destruct (Z.eqb_spec k i) as [->|]; [|apply I4; lia].
      unfold u. rewrite P1, P2. splits; auto.
    + intros k Hk. rewrite !zn_upd by lia. destruct (Z.eqb_spec k i); [lia|]. apply I5; lia.
    + intros k Hk. rewrite !zn_upd by lia. destruct (Z.eqb_spec k i); [lia|]. apply I6; lia.
  - match goal with |- context [for_up 0 (m + 1) ?B ?S] => replace (for_up 0 (m + 1) B S) with (OK (ph, un', o2)) by (symmetry; exact E) end.
    ret. do 4 eexists; split; [reflexivity|].
    assert (U : forall k, 0 <= k <= m -> unwraps (2 * m) hop k (un k) (zn 0%R theta' k) (zn 0%R o2 k)).
    { intros k Hk. destruct (I4 k) as (_ & _ & ->); [lia|]. apply unwraps_princarg. apply I; lia. }
    split; [|split; [|split; [|split]]].
    + unfold pv_ok; cbn [p_n p_hop p_fft p_time p_real p_imag p_phase p_unwrapped]. splits; auto.
      intros k Hk. destruct (I4 k) as (-> & -> & Q); [lia|]. splits; auto. apply U; lia.
    + eapply holds_kept; exact Hmag.
    + eapply holds_kept; exact Htheta.
    + split; [exact I3|exact I6].
    + intros k Hk. split; [|auto]. destruct Hmag as (_ & G1 & _). destruct Htheta as (_ & G2 & _).
      rewrite G1, G2 by lia. apply atan2_polar.
Qed.

Lemma time_ok m hop o th un src mag theta out :
  1 <= m < 2 ^ 30 -> pv_ok m hop o th un -> 2 * m <= zlen src -> m + 1 <= zlen mag -> m + 1 <= zlen theta -> m + 1 <= zlen out ->
  exists o' mag' theta' out', pv_time o src mag theta out = OK (o', mag', theta', out') /\
    pv_ok m hop o' (zn 0%R theta') (zn 0%R out') /\
    kept (m + 1) mag' mag /\ kept (m + 1) theta' theta /\ kept (m + 1) out' out /\
    (forall k, 0 <= k <= m ->
       polar (alternate k * dft_re (2 * m) (zn 0%R src) (fun _ => 0%R) k) (alternate k * dft_im (2 * m) (zn 0%R src) (fun _ => 0%R) k)
             (zn 0%R mag' k) (zn 0%R theta' k) /\
       unwraps (2 * m) hop k (un k) (zn 0%R theta' k) (zn 0%R out' k)).
Proof.
  intros Hm O L M1 M2 M3. pose proof O as (N1 & N2 & R0 & T1 & T2 & T3 & _). unfold pv_time. rewrite N1.
  rewrite (for_up_set (2 * m) (aget src) (zn 0%R src)) by (try lia; intros; apply aget_OK; lia).
  ret. rewrite skipn_zlen, app_nil_r by lia.
  destruct (shift_ok m (ztab (2 * m) (zn 0%R src))) as (t & E & Lt & Ht); [lia|zl; lia|]. rewrite E. ret.
  destruct (fftreal_forward_ok m (p_fft o) t (p_real o) (p_imag o)) as (f & re & im & Ef & Rf & Lr & Li & _ & V); auto; try lia.
  rewrite Ef. ret.
  destruct (finish_ok m hop o th un f t re im mag theta out) as (o' & mag' & theta' & out' & F & O' & K1 & K2 & K3 & P); auto; try lia.
  exists o', mag', theta', out'. split; [exact F|]. do 4 (split; [auto|]).
  intros k Hk. destruct (P k Hk) as (P1 & P2). split; [|auto]. specialize (V k ltac:(lia)).
  rewrite (cdft_ext _ _ _ (fun j => cre (rotated m (zn 0%R src) j))) in V.
  2:{ intros j Hj. rewrite Ht by lia. unfold rotated. destruct (Z.ltb_spec j m); rewrite zn_ztab by lia; reflexivity. }
  rewrite cdft_rotated in V by lia. rewrite cdft_forward in V by lia.
  pose proof (f_equal fst V) as V1. pose proof (f_equal snd V) as V2. clear V. unfold cmul, cre, fst, snd in V1, V2.
  change (fun j => zn 0%R src j) with (zn 0%R src) in V1, V2.
  replace (alternate k * dft_re (2 * m) (zn 0 src) (fun _ => 0) k)%R with (zn 0%R re k); [|rewrite V1; ring].
  replace (alternate k * dft_im (2 * m) (zn 0 src) (fun _ => 0) k)%R with (zn 0%R im k); [exact P1|rewrite V2; ring].
Qed.

Lemma freq_ok m hop o th un reals imags mag theta out :
  1 <= m < 2 ^ 30 -> pv_ok m hop o th un -> m + 1 <= zlen reals -> m + 1 <= zlen imags ->
  m + 1 <= zlen mag -> m + 1 <= zlen theta -> m + 1 <= zlen out ->
  exists o' mag' theta' out', pv_freq o reals imags mag theta out = OK (o', mag', theta', out') /\
    pv_ok m hop o' (zn 0%R theta') (zn 0%R out') /\
    kept (m + 1) mag' mag /\ kept (m + 1) theta' theta /\ kept (m + 1) out' out /\
    (forall k, 0 <= k <= m -> polar (zn 0%R reals k) (zn 0%R imags k) (zn 0%R mag' k) (zn 0%R theta' k) /\
       unwraps (2 * m) hop k (un k) (zn 0%R theta' k) (zn 0%R out' k)).
Proof.
  intros Hm O L1 L2 M1 M2 M3. pose proof O as (N1 & N2 & R0 & T1 & T2 & T3 & _). unfold pv_freq. rewrite N1, half_2m.
  match goal with |- context [for_up 0 (m + 1) ?B ?S] =>
    destruct (for_up_inv (fun i (x : list R * list R) => let '(a, b) := x in zlen a = 2 * m /\ zlen b = 2 * m /\
      forall k, 0 <= k < i -> zn 0%R a k = zn 0%R reals k /\ zn 0%R b k = zn 0%R imags k) 0 (m + 1) B S)
      as ((re & im) & E & I1 & I2 & I3); [lia| | |] end.
  - splits; auto. intros; lia.
  - intros i (a & b) Hi (I1 & I2 & I3). rewrite !(aget_OK 0%R) by lia. ret. rewrite aset_OK by lia. ret. ret.
    rewrite aset_OK by lia. ret. eexists; split; [reflexivity|]. cbv beta iota. splits; try (zl; lia).
    intros k Hk. rewrite !zn_upd by lia. destruct (Z.eqb_spec k i) as [->|]; [auto|apply I3; lia].
  - match goal with |- context [for_up 0 (m + 1) ?B ?S] => replace (for_up 0 (m + 1) B S) with (OK (re, im)) by (symmetry; exact E) end.
    ret. destruct (finish_ok m hop o th un (p_fft o) (p_time o) re im mag theta out) as (o' & mag' & theta' & out' & F & O' & K1 & K2 & K3 & P); auto; try lia.
    exists o', mag', theta', out'. split; [exact F|]. do 4 (split; [auto|]).
    intros k Hk. destruct (I3 k) as (<- & <-); [lia|]. auto.
Qed.

Lemma run_ok n hop o th un : 2 <= n < 2 ^ 31 -> n mod 2 = 0 -> pv_run n hop o th un -> pv_ok (n / 2) hop o th un.
Proof.
  intros Hn H2 U. pose proof (even_half n H2) as Hm. pose proof (eq_refl (n / 2)) as Em. set (m := n / 2) in Em at 2. clearbody m.
  rewrite Em in *. subst n. rename Em into _Em. assert (1 <= m < 2 ^ 30) by lia.
  induction U as [j1 j2 jc jt jr ji o A B C D E F G|o th un o' U IH G|o th un src mag theta out o' mag' theta' out' U IH A B C D G
                 |o th un re im mag theta out o' mag' theta' out' U IH A B C D E G].
  - destruct (new_ok m hop j1 j2 jc jt jr ji) as (o1 & E1 & O1); auto; try lia. rewrite E1 in G. injection G as <-. exact O1.
  - destruct IH as (N1 & N2 & R0 & T1 & T2 & T3 & T4 & T5 & I).
    destruct (reset_ok m hop o) as (o1 & E1 & O1); auto; try lia. rewrite E1 in G. injection G as <-. exact O1.
  - destruct (time_ok m hop o th un src mag theta out) as (o1 & m1 & t1 & u1 & E1 & O1 & _); auto; try lia.
    rewrite E1 in G. injection G as <- <- <- <-. exact O1.
  - destruct (freq_ok m hop o th un re im mag theta out) as (o1 & m1 & t1 & u1 & E1 & O1 & _); auto; try lia.
    rewrite E1 in G. injection G as <- <- <- <-. exact O1.
Qed.

(** *** What is exported *)
Theorem pv_constructed n hop j1 j2 jc jt jr ji : 2 <= n < 2 ^ 31 -> n mod 2 = 0 ->
  zlen j1 = n / 2 -> zlen j2 = n / 2 -> zlen jc = n -> zlen jt = n -> zlen jr = n -> zlen ji = n ->
  exists o, pv_new n hop j1 j2 jc jt jr ji = OK o.
Proof.
  intros Hn H2 A B C D E F. pose proof (even_half n H2) as Hm. set (m := n / 2) in *. clearbody m.
  destruct (new_ok m hop j1 j2 jc jt jr ji) as (o & G & _); auto; try lia. rewrite <- Hm in G. eauto.
Qed.

Theorem pv_odd n hop j1 j2 jc jt jr ji : n mod 2 <> 0 -> pv_new n hop j1 j2 jc jt jr ji = Throw.
Proof. intros H. unfold pv_new. now rewrite fftreal_new_odd. Qed.

Theorem pv_reset_run n hop o th un : 2 <= n < 2 ^ 31 -> n mod 2 = 0 -> pv_run n hop o th un -> exists o', pv_reset o = OK o'.
Proof.
  intros Hn H2 U. pose proof (even_half n H2) as Hm. destruct (run_ok n hop o th un Hn H2 U) as (N1 & N2 & R0 & T1 & T2 & T3 & T4 & T5 & I).
  destruct (reset_ok (n / 2) hop o) as (o1 & E1 & _); auto; try lia. eauto.
Qed.

Theorem pv_time_frame n hop o th un src mag theta out : 2 <= n < 2 ^ 31 -> n mod 2 = 0 -> pv_run n hop o th un ->
  n <= zlen src -> n / 2 + 1 <= zlen mag -> n / 2 + 1 <= zlen theta -> n / 2 + 1 <= zlen out ->
  exists o' mag' theta' out', pv_time o src mag theta out = OK (o', mag', theta', out') /\
    pv_run n hop o' (zn 0%R theta') (zn 0%R out') /\
    kept (n / 2 + 1) mag' mag /\ kept (n / 2 + 1) theta' theta /\ kept (n / 2 + 1) out' out /\
    (forall k, 0 <= k <= n / 2 ->
       polar (alternate k * dft_re n (zn 0%R src) (fun _ => 0%R) k) (alternate k * dft_im n (zn 0%R src) (fun _ => 0%R) k)
             (zn 0%R mag' k) (zn 0%R theta' k) /\
       unwraps n hop k (un k) (zn 0%R theta' k) (zn 0%R out' k)).
Proof.
  intros Hn H2 U A B C D. pose proof (even_half n H2) as Hm. pose proof (run_ok n hop o th un Hn H2 U) as O.
  destruct (time_ok (n / 2) hop o th un src mag theta out) as (o' & m1 & t1 & u1 & E & _ & K1 & K2 & K3 & P); auto; try lia.
  rewrite <- Hm in P. exists o', m1, t1, u1. split; [auto|]. split; [|auto 6]. eapply pr_time; [exact U|..|exact E]; auto.
Qed.

Theorem pv_freq_frame n hop o th un re im mag theta out : 2 <= n < 2 ^ 31 -> n mod 2 = 0 -> pv_run n hop o th un ->
  n / 2 + 1 <= zlen re -> n / 2 + 1 <= zlen im -> n / 2 + 1 <= zlen mag -> n / 2 + 1 <= zlen theta -> n / 2 + 1 <= zlen out ->
  exists o' mag' theta' out', pv_freq o re im mag theta out = OK (o', mag', theta', out') /\
    pv_run n hop o' (zn 0%R theta') (zn 0%R out') /\
    kept (n / 2 + 1) mag' mag /\ kept (n / 2 + 1) theta' theta /\ kept (n / 2 + 1) out' out /\
    (forall k, 0 <= k <= n / 2 -> polar (zn 0%R re k) (zn 0%R im k) (zn 0%R mag' k) (zn 0%R theta' k) /\
       unwraps n hop k (un k) (zn 0%R theta' k) (zn 0%R out' k)).
Proof.
  intros Hn H2 U A B C D E0. pose proof (even_half n H2) as Hm. pose proof (run_ok n hop o th un Hn H2 U) as O.
  destruct (freq_ok (n / 2) hop o th un re im mag theta out) as (o' & m1 & t1 & u1 & E & _ & K1 & K2 & K3 & P); auto; try lia.
  rewrite <- Hm in P. exists o', m1, t1, u1. split; [auto|]. split; [|auto 6]. eapply pr_freq; [exact U|..|exact E]; auto.
Qed.

(** The accumulated phase stays congruent to the measured one. *)
Theorem pv_congruent n hop o th un : 2 <= n < 2 ^ 31 -> n mod 2 = 0 -> pv_run n hop o th un ->
  forall k, 0 <= k <= n / 2 -> same_angle (un k) (th k).
Proof. intros Hn H2 U k Hk. destruct (run_ok n hop o th un Hn H2 U) as (_ & _ & _ & _ & _ & _ & _ & _ & I). apply I; auto. Qed.

(** The first frame is returned unchanged. *)
Theorem pv_first n hop k th' un' : (- PI < th' <= PI)%R -> unwraps n hop k (- advance n hop k) th' un' -> un' = th'.
Proof. intros H U. eapply unwraps_unique; [exact U|]. split; [exists 0; lra|lra]. Qed.

(** A component whose phase moves by less than half a turn more or less than the advance is followed exactly. *)
Theorem pv_follows n hop k un th th' un' f f' : same_angle un th -> unwraps n hop k un th' un' ->
  same_angle f th -> same_angle f' th' -> (- PI < f' - f - advance n hop k <= PI)%R -> (un' - un = f' - f)%R.
Proof.
  intros [a A] U [b B] [c C] H.
  assert (X : unwraps n hop k un th' (un + f' - f)).
  { split; [|lra]. exists (a + c - b). rewrite minus_IZR, plus_IZR. lra. }
  rewrite (unwraps_unique _ _ _ _ _ _ _ U X). ring.
Qed.
