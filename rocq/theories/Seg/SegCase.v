(** Corollaries in the form of the properties, and concrete cases. *)
From Coq Require Import List ZArith Reals Lia Lra Bool.
From Verif.Base Require Import Imp Sums Arith RealOps Loops Matrix.
From Verif.Maths Require Import IntModel.
From Verif.Seg Require Import MeltModel MeltLoops MeltSpec MeltProofs SegModel SegSpec SegProofs SegResults SegFeatures SegWhole.
Import ListNotations.
Open Scope Z_scope.

(** Distance of histograms. *)
Theorem kldist_divergence a h off n : 0 <= n -> zlen a = n -> 0 <= off -> off + n <= zlen h ->
  (forall i, 0 <= i < n -> (0 <= zn 0 a i)%R /\ (0 <= zn 0 h (off + i)%Z)%R) ->
  exists d, kldist Rarith ln a h off n = OK d /\ d = divergence n (zn 0%R a) (fun i => zn 0%R h (off + i)) /\
    (0 <= d <= (rsum n (zn 0%R a) + rsum n (fun i => zn 0%R h (off + i))) * ln 2)%R /\
    (d = 0%R <-> forall i, 0 <= i < n -> zn 0%R a i = zn 0%R h (off + i)).
Proof.
  intros Hn La Ho Hh P. rewrite (kldist_ok Rarith ln a h off n (zn 0%R a)); auto.
  2:{ rewrite <- La. symmetry. apply ztab_zn. }
  rewrite kl_divergence by exact P. eexists; split; [reflexivity|]. split; [reflexivity|]. split; [split|split].
  - apply rsum_nonneg. intros i Hi. destruct (P i Hi). now apply from_mean_nonneg.
  - rewrite <- rsum_plus, Rmult_comm, <- rsum_scal. apply rsum_le. intros i Hi. destruct (P i Hi) as [Px Py].
    pose proof (from_mean_le _ _ Px Py). cbn [Rarith a_of]. lra.
  - intros E i Hi. destruct (P i Hi) as [Px Py]. apply from_mean_zero; auto.
    assert (T : forall i, 0 <= i < n -> (0 <= from_mean (zn 0 a i) (zn 0 h (off + i)%Z))%R) by (intros q Hq; destruct (P q Hq); now apply from_mean_nonneg).
    apply Rle_antisym; [|now apply T]. unfold divergence in E. cbn [Rarith a_of] in E. apply Rle_trans with (2 := Req_le _ _ E).
    apply (rsum_term n (fun i => from_mean (zn 0%R a i) (zn 0%R h (off + i))) i); auto.
  - intros E. apply rsum_zero. intros i Hi. destruct (P i Hi). cbn [Rarith a_of]. rewrite E by auto. now apply from_mean_same.
Qed.
Lemma divergence_sym n x y : divergence n x y = divergence n y x.
Proof. apply rsum_ext. intros. apply from_mean_sym. Qed.

(** Nothing of previous memory contents is left in the result; the types are 1..k. *)
Theorem cluster_melt_any {T} (A : arith T) texp tlog lambda rnd h m n bs t k l :
  0 <= m -> 0 <= n -> 1 <= k -> n * m <= zlen h -> 0 <= t <= zlen bs ->
  exists c', forall junk junkZ c, zlen c = n -> cluster_melt A texp tlog lambda junk junkZ rnd h m n bs t k l c = OK c' /\
    zlen c' = n /\ Forall (fun i => 1 <= i <= k) c'.
Proof.
  intros Hm Hn Hk Hh Ht. eexists. intros junk junkZ c Lc. split; [now apply cluster_melt_ok|]. split; [zl; lia|].
  apply Forall_forall. intros v Iv. unfold ztab in Iv. apply in_map_iff in Iv. destruct Iv as (i & <- & Hi). apply in_seq in Hi.
  apply schedule_range; auto; lia.
Qed.

(** Histograms. *)
Theorem create_histograms_meaning x nx m hlen h : 1 <= m -> 0 <= hlen -> 2 * Z.quot hlen 2 + 1 <= nx -> nx <= zlen x ->
  (forall t, 0 <= t < nx -> 0 <= zn 0 x t < m) -> zlen h = nx * m ->
  exists h', create_histograms x nx m hlen h = OK h' /\ zlen h' = nx * m /\
    forall i, 0 <= i < nx -> let g j := zn 0%R h' (i * m + j) in
      (forall j, 0 <= j < m -> g j = histogram (zn 0 x) nx m (Z.quot hlen 2) i j /\ (0 <= g j)%R) /\
      exists total, (0 < total)%R /\ rsum m g = (IZR (2 * Z.quot hlen 2 + 1) / total)%R /\ rsum m (fun j => g j * g j)%R = (/ total)%R.
Proof.
  intros Hm Hh Hf Lx Rx Lh.
  assert (Hq : 0 <= Z.quot hlen 2) by (apply Z.quot_pos; lia). set (hl := Z.quot hlen 2) in *.
  destruct (create_histograms_ok x nx m hl Hm Hq Hf Lx Rx h hlen eq_refl Lh) as (h' & E & L & V).
  exists h'. split; [exact E|]. split; [exact L|]. intros i Hi g. split.
  - intros j Hj. unfold g. rewrite V by auto. split; [reflexivity|]. apply histogram_nonneg.
  - set (i' := Z.max hl (Z.min i (nx - hl - 1))). assert (Hi' : hl <= i' < nx - hl) by lia.
    pose proof (occ_square_pos x nx m hl Hq Rx i' Hi') as SP. set (total := rsum m (fun j => occurrences (zn 0%Z x) hl i' j * occurrences (zn 0%Z x) hl i' j)%R) in *.
    exists total. split; [exact SP|].
    assert (Eg : forall j, 0 <= j < m -> g j = (occurrences (zn 0%Z x) hl i' j / total)%R) by (intros j Hj; unfold g; now rewrite V by auto).
    split.
    + rewrite (rsum_ext m g (fun j => / total * occurrences (zn 0%Z x) hl i' j)%R) by (intros j Hj; rewrite Eg by auto; unfold Rdiv; ring).
      rewrite rsum_scal. rewrite (occ_total x nx m hl Hm Hq Rx i' Hi'). unfold Rdiv. ring.
    + rewrite (rsum_ext m _ (fun j => / (total * total) * (occurrences (zn 0%Z x) hl i' j * occurrences (zn 0%Z x) hl i' j))%R) by (intros j Hj; rewrite Eg by auto; field; lra).
      rewrite rsum_scal. fold total. field. lra.
Qed.

(** One type only. *)
Lemma segmentation_one hop c len l : 0 < hop -> 0 < len -> (forall i, 0 <= i < len -> c i = c 0) -> is_segmentation hop c 0 len l -> l = [Seg 0 (len * hop) (c 0)].
Proof.
  intros Hh Hl C I. eapply (segmentation_unique hop c len Hh); [exact I|]. split; [|split; [|split]].
  - cbn -[Z.mul]. split; [lia|]. split; [nia|reflexivity].
  - exact Logic.I.
  - intros i Hi. eexists. split; [now left|]. cbn [s_start s_end s_type]. split; [nia|]. symmetry. now apply C.
  - constructor; auto. exists 0. reflexivity.
Qed.
