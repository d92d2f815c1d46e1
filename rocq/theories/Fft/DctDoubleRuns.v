(** Class DCT in IEEE doubles: what the methods execute. *)
From Coq Require Import ZArith Reals Lia List Bool.
From Verif.Base Require Import Imp RealOps Double Loops.
From Verif.Maths Require Import DoubleModel.
From Verif.Fft Require Import FftDouble FftDoubleSpec FftrDouble FftrDoubleSpec FftrDoubleRuns DctDouble DctDoubleSpec.
Import ListNotations.
Open Scope Z_scope.

Section Runs.
  Context (dcos dsin : double -> double) (n : Z) (Hn : 1 <= n <= 2 ^ 28).
  Notation in4 := (real_in_use dcos dsin (n * 4)).

  Lemma n4 : 1 <= 2 * n /\ 2 * (2 * n) <= 2 ^ 30.
  Proof. change (2 ^ 28) with 268435456 in Hn. change (2 ^ 30) with 1073741824. lia. Qed.
  Lemma n4h : n * 4 / 2 = 2 * n.
  Proof. replace (n * 4) with (2 * (2 * n)) by lia. apply half2. Qed.

  (** The buffers have their sizes; the even samples of the time buffer satisfy P. *)
  Definition dct_ready (P : double -> Prop) (d : ddct) : Prop :=
    dd_n d = n /\ dd_scale d = ddct_scale n /\ zlen (dd_scaled d) = n /\ zlen (dd_time2 d) = 4 * n /\
    zlen (dd_freq2r d) = 4 * n /\ zlen (dd_freq2i d) = 4 * n /\ in4 (dd_fft d) /\
    (forall j, 0 <= j < 2 * n -> P (zn d0 (dd_time2 d) (2 * j))).

  Lemma m2 : 2 <= 2 * n /\ 2 * n <= 2 ^ 29.
  Proof. change (2 ^ 28) with 268435456 in Hn. change (2 ^ 29) with 536870912. lia. Qed.

  Lemma forward_run o ri ro io : in4 o -> 4 * n <= zlen ri -> 4 * n <= zlen ro -> 4 * n <= zlen io ->
    exists o' ro' io', dfftreal_forward o ri ro io = OK (o', ro', io') /\ in4 o' /\ zlen ro' = zlen ro /\ zlen io' = zlen io.
  Proof.
    intros U L1 L2 L3.
    assert (R : dready dcos dsin (2 * n) o).
    { apply real_in_use_ready; [pose proof n4; lia|]. replace (2 * (2 * n)) with (n * 4) by lia. exact U. }
    destruct (dforward_runs dcos dsin (2 * n) ltac:(pose proof n4; lia) o ri ro io R) as (tmp & o' & ro' & io' & _ & _ & E & _ & A & B & _); try lia.
    exists o', ro', io'. splits; auto. eapply real_forward; [exact U| | | |exact E]; lia.
  Qed.
  Lemma inverse_run o ri ii ro : in4 o -> 2 * n < zlen ri -> 2 * n < zlen ii -> 4 * n <= zlen ro ->
    exists o' ro', dfftreal_inverse o ri ii ro = OK (o', ro') /\ in4 o' /\ zlen ro' = zlen ro.
  Proof.
    intros U L1 L2 L3.
    assert (R : dready dcos dsin (2 * n) o).
    { apply real_in_use_ready; [pose proof n4; lia|]. replace (2 * (2 * n)) with (n * 4) by lia. exact U. }
    destruct (dinverse_runs dcos dsin (2 * n) ltac:(pose proof n4; lia) o ri ii ro R) as (c & tmp & z & o' & _ & _ & _ & _ & _ & E & _); try lia.
    exists o'. eexists. splits; [exact E| |zl; lia]. eapply real_inverse; [exact U| | | |exact E]; rewrite ?n4h; lia.
  Qed.

  Lemma ddct_new_ready (P : double -> Prop) j1 j2 jc : P d0 -> zlen j1 = 2 * n -> zlen j2 = 2 * n -> zlen jc = 4 * n ->
    exists d, ddct_new dcos dsin n j1 j2 jc = OK d /\ dct_ready P d.
  Proof.
    intros HP L1 L2 L3. unfold ddct_new.
    destruct (dnew_ready dcos dsin (2 * n) ltac:(pose proof n4; lia) j1 j2 jc) as (f & E & _); try lia.
    replace (2 * (2 * n)) with (n * 4) in E by lia. rewrite E. ret. eexists; split; [reflexivity|].
    unfold dct_ready; cbn [dd_n dd_scale dd_scaled dd_time2 dd_freq2r dd_freq2i dd_fft]. splits; auto; try (zl; lia).
    - eapply real_new; [| | |exact E]; rewrite ?n4h; lia.
    - intros j Hj. rewrite zn_repeat_in by lia. exact HP.
  Qed.

  Lemma ddct_forward_runs (P : double -> Prop) d x out : dct_ready P d -> n <= zlen x -> n <= zlen out ->
    exists t f fr fi d', zlen t = 4 * n /\
      (forall j, 0 <= j < 2 * n -> P (zn d0 t (2 * j))) /\
      (forall j, 0 <= j < n -> zn d0 t (2 * j + 1) = zn d0 x j) /\ (forall j, 0 <= j < n -> zn d0 t (4 * n - 2 * j - 1) = zn d0 x j) /\
      dfftreal_forward (dd_fft d) t (dd_freq2r d) (dd_freq2i d) = OK (f, fr, fi) /\
      ddct_forward d x out = OK (d', ztab n (zn d0 fr) ++ skipn (Z.to_nat n) out) /\ dct_ready P d'.
  Proof.
    intros (R1 & R2 & R3 & R4 & R5 & R6 & R7 & R8) Lx Lo. unfold ddct_forward. rewrite R1.
    match goal with |- context [for_up 0 n ?B ?S0] =>
      destruct (for_up_inv (fun i t => zlen t = 4 * n /\ (forall j, 0 <= j < 2 * n -> P (zn d0 t (2 * j))) /\
         (forall j, 0 <= j < i -> zn d0 t (2 * j + 1) = zn d0 x j) /\
         (forall j, 0 <= j < i -> zn d0 t (4 * n - 2 * j - 1) = zn d0 x j)) 0 n B S0)
        as (t & E & T1 & T2 & T3 & T4); [lia| | |rewrite E; clear E] end.
    - splits; auto; intros; lia.
    - intros i t Hi (T1 & T2 & T3 & T4). rewrite (aget_OK d0) by lia. ret. rewrite aset_OK by lia. ret.
      rewrite aset_OK by (zl; lia). eexists; split; [reflexivity|]. splits.
      + zl; lia.
      + intros j Hj. rewrite !zn_upd by (zl; lia). destruct (Z.eqb_spec (2 * j) (n * 4 - i * 2 - 1)); [lia|].
        destruct (Z.eqb_spec (2 * j) (i * 2 + 1)); [lia|]. auto.
      + intros j Hj. rewrite !zn_upd by (zl; lia). destruct (Z.eqb_spec (2 * j + 1) (n * 4 - i * 2 - 1)); [lia|].
        destruct (Z.eqb_spec (2 * j + 1) (i * 2 + 1)); [f_equal; lia|]. apply T3; lia.
      + intros j Hj. rewrite !zn_upd by (zl; lia). destruct (Z.eqb_spec (4 * n - 2 * j - 1) (n * 4 - i * 2 - 1)); [f_equal; lia|].
        destruct (Z.eqb_spec (4 * n - 2 * j - 1) (i * 2 + 1)); [lia|]. apply T4; lia.
    - ret. destruct (forward_run (dd_fft d) t (dd_freq2r d) (dd_freq2i d) R7) as (f & fr & fi & E & Rf & L1 & L2); try lia.
      rewrite E. ret. rewrite (for_up_set n (aget fr) (zn d0 fr)); try lia.
      2:{ intros i Hi. now rewrite (aget_OK d0) by lia. }
      ret. exists t, f, fr, fi. eexists. splits; auto; try reflexivity.
      unfold dct_ready; cbn [dd_n dd_scale dd_scaled dd_time2 dd_freq2r dd_freq2i dd_fft]. splits; auto; lia.
  Qed.

  (** The spectrum the inverse transform is given. *)
  Definition dspect (y : Z -> double) (k : Z) : double := if k <? n then y k else if k =? n then d0 else dopp (y (2 * n - k)).

  Lemma ddct_inverse_runs (P Q : double -> Prop) d y out : dct_ready P d -> n <= zlen y -> n <= zlen out ->
    exists fr fi f t d', zlen fr = 4 * n /\ zlen fi = 4 * n /\
      (forall k, 0 <= k <= 2 * n -> zn d0 fr k = dspect (zn d0 y) k /\ zn d0 fi k = d0) /\
      dfftreal_inverse (dd_fft d) fr fi (dd_time2 d) = OK (f, t) /\ zlen t = 4 * n /\
      ddct_inverse d y out = OK (d', ztab n (fun i => zn d0 t (2 * i + 1)) ++ skipn (Z.to_nat n) out) /\
      ((forall j, 0 <= j < 2 * n -> Q (zn d0 t (2 * j))) -> dct_ready Q d').
  Proof.
    intros (R1 & R2 & R3 & R4 & R5 & R6 & R7 & R8) Ly Lo. unfold ddct_inverse. rewrite R1.
    rewrite (for_up_set n (aget y) (zn d0 y)); try lia.
    2:{ intros i Hi. now rewrite (aget_OK d0) by lia. }
    ret. set (fr1 := ztab n (zn d0 y) ++ skipn (Z.to_nat n) (dd_freq2r d)).
    assert (L1 : zlen fr1 = 4 * n) by (unfold fr1; zl; lia).
    assert (V1 : forall k, 0 <= k < n -> zn d0 fr1 k = zn d0 y k).
    { intros k Hk. unfold fr1. rewrite zn_app. zl. rewrite Z.max_r by lia. destruct (Z.ltb_spec k n); [|lia]. now rewrite zn_ztab by lia. }
    match goal with |- context [for_up 0 n ?B fr1] =>
      destruct (for_up_inv (fun i t => zlen t = 4 * n /\ (forall k, 0 <= k < n -> zn d0 t k = zn d0 y k) /\
         (forall k, 2 * n - i < k <= 2 * n -> zn d0 t k = dopp (zn d0 y (2 * n - k)))) 0 n B fr1)
        as (fr & E & T1 & T2 & T3); [lia| | |rewrite E; clear E] end.
    - splits; auto; intros; lia.
    - intros i t Hi (T1 & T2 & T3). rewrite (aget_OK d0) by lia. ret. rewrite aset_OK by (zl; lia). eexists; split; [reflexivity|].
      splits.
      + zl; lia.
      + intros k Hk. rewrite zn_upd by (zl; lia). destruct (Z.eqb_spec k (n * 2 - i)); [lia|]. auto.
      + intros k Hk. rewrite zn_upd by (zl; lia). destruct (Z.eqb_spec k (n * 2 - i)) as [->|]; [do 2 f_equal; lia|]. apply T3; lia.
    - ret. rewrite aset_OK by lia. ret.
      rewrite (for_up_tab (n * 2 + 1) _ (fun _ => d0)); try lia.
      2:{ reflexivity. }
      ret.
      match goal with |- context [dfftreal_inverse _ ?A ?B _] => set (FR := A); set (FI := B) end.
      assert (LR : zlen FR = 4 * n) by (unfold FR; zl; lia).
      assert (LI : zlen FI = 4 * n) by (unfold FI; zl; lia).
      destruct (inverse_run (dd_fft d) FR FI (dd_time2 d) R7) as (f & t & E & Rf & Lt); try lia.
      rewrite E. ret.
      rewrite (for_up_set n (fun i => aget t (i * 2 + 1)%Z) (fun i => zn d0 t (2 * i + 1))); try lia.
      2:{ intros i Hi. rewrite (aget_OK d0) by lia. f_equal. f_equal. lia. }
      ret. exists FR, FI, f, t. eexists. splits; auto; try reflexivity; try lia.
      + intros k Hk. split.
        * unfold FR, dspect. rewrite zn_upd by lia. destruct (Z.eqb_spec k n) as [->|].
          -- destruct (Z.ltb_spec n n); [lia|reflexivity].
          -- destruct (Z.ltb_spec k n); [now apply T2|]. apply T3. lia.
        * unfold FI. rewrite zn_app. zl. rewrite Z.max_r by lia. destruct (Z.ltb_spec k (n * 2 + 1)); [|lia]. now rewrite zn_ztab by lia.
      + intros HQ. unfold dct_ready; cbn [dd_n dd_scale dd_scaled dd_time2 dd_freq2r dd_freq2i dd_fft]. splits; auto; lia.
  Qed.

  Definition unitary_out (y : Z -> double) (k : Z) : double :=
    if k =? 0 then ddiv (ddiv (y 0) (ddct_scale n)) droot2 else ddiv (y k) (ddct_scale n).
  Lemma ddct_forward_unitary_runs P d x out d' o1 : dct_ready P d' -> n <= zlen out -> zlen o1 = zlen out ->
    ddct_forward d x out = OK (d', o1) ->
    ddct_forward_unitary d x out = OK (d', ztab n (unitary_out (zn d0 o1)) ++ skipn (Z.to_nat n) o1).
  Proof.
    intros (R1 & R2 & _) Lo Lo1 E. unfold ddct_forward_unitary. rewrite E. ret. rewrite R1, R2.
    rewrite (for_up_tab n _ (fun k => ddiv (zn d0 o1 k) (ddct_scale n))).
    2: lia.
    2:{ intros i s Hi Ls H1 H2. rewrite (aget_OK d0) by lia. ret. rewrite H1 by lia. reflexivity. }
    ret. set (o2 := ztab n _ ++ _).
    assert (L2 : zlen o2 = zlen out) by (unfold o2; zl; lia).
    rewrite (aget_OK d0) by lia. ret. rewrite aset_OK by lia. ret.
    f_equal. f_equal. apply (zn_ext d0); [zl; lia|]. intros k Hk. rewrite zn_upd by lia.
    rewrite zn_app. zl. rewrite !Z.max_r by lia. unfold o2. rewrite !zn_app. zl. rewrite !Z.max_r by lia.
    destruct (Z.ltb_spec k n).
    - rewrite (zn_ztab d0 n (unitary_out (zn d0 o1))) by lia. unfold unitary_out. destruct (Z.eqb_spec k 0) as [->|].
      + destruct (Z.ltb_spec 0 n); [|lia]. now rewrite zn_ztab by lia.
      + now rewrite zn_ztab by lia.
    - destruct (Z.eqb_spec k 0); [lia|]. reflexivity.
  Qed.

  Definition unitary_in (y : Z -> double) (k : Z) : double :=
    if k =? 0 then dmul (dmul (y 0) (ddct_scale n)) droot2 else dmul (y k) (ddct_scale n).
  Lemma ddct_inverse_unitary_runs P d y out : dct_ready P d -> n <= zlen y ->
    exists d1 s, ddct_inverse_unitary d y out = ddct_inverse d1 s out /\ zlen s = n /\ (forall k, 0 <= k < n -> zn d0 s k = unitary_in (zn d0 y) k) /\ dct_ready P d1.
  Proof.
    intros (R1 & R2 & R3 & R4 & R5 & R6 & R7 & R8) Ly. unfold ddct_inverse_unitary. rewrite R1.
    rewrite (for_up_tab n _ (fun i => dmul (zn d0 y i) (dd_scale d))).
    2: lia.
    2:{ intros i s Hi _ _ _. now rewrite (aget_OK d0) by lia. }
    ret. set (s1 := ztab n _ ++ _).
    assert (L1 : zlen s1 = n) by (unfold s1; zl; lia).
    rewrite (aget_OK d0) by lia. ret. rewrite aset_OK by lia. ret.
    assert (V1 : forall k, 0 <= k < n -> zn d0 s1 k = dmul (zn d0 y k) (ddct_scale n)).
    { intros k Hk. unfold s1. rewrite zn_app. zl. rewrite Z.max_r by lia. destruct (Z.ltb_spec k n); [|lia]. rewrite zn_ztab by lia. now rewrite R2. }
    eexists _, _. split; [reflexivity|]. split; [zl; lia|]. split.
    - intros k Hk. rewrite zn_upd by lia. unfold unitary_in. destruct (Z.eqb_spec k 0) as [->|]; now rewrite V1 by lia.
    - unfold dct_ready; cbn [dd_n dd_scale dd_scaled dd_time2 dd_freq2r dd_freq2i dd_fft]. splits; auto. zl; lia.
  Qed.
End Runs.
