(** C72-C77: the tonal centroid, the harmonic change function and their containers. *)
From Coq Require Import List ZArith Reals Lia Lra Bool.
From Verif.Base Require Import Imp RealOps.
From Verif.Tonal Require Import TonalModel TonalSpec TonalProofs TonalResults.
Import ListNotations.
Open Scope Z_scope.

(** C72: the six numbers are the centroid of the chroma on the circles of fifths, major and minor thirds. *)
Theorem C72_values :
  forall c, zlen c = 12 ->
    exists b v, tonal_new = OK b /\ transform2TCS b c = OK v /\ zlen v = 6 /\
      forall r, 0 <= r < 3 -> point v r = on_circle r c.
Proof. exact tcs_values. Qed.
Print Assumptions C72_values.

(** Transposing the music turns each of the three points about the origin; the magnitude stays. *)
Theorem C72_transposed :
  forall k c b, zlen c = 12 -> tonal_new = OK b ->
    exists v v', transform2TCS b c = OK v /\ transform2TCS b (transposed k c) = OK v' /\
      (forall r, 0 <= r < 3 -> point v' r = turned (IZR k * semitone r) (point v r)) /\ norm2 v' = norm2 v.
Proof. exact transposed_tcs. Qed.
Print Assumptions C72_transposed.

(** A fifth, a major third and a minor third are one step round the circle named after them. *)
Theorem C72_steps :
  forall c,
    on_circle 0 (transposed 7 c) = turned (2 * PI / 12) (on_circle 0 c) /\
    on_circle 1 (transposed 4 c) = turned (2 * PI / 3) (on_circle 1 c) /\
    on_circle 2 (transposed 3 c) = turned (2 * PI / 4) (on_circle 2 c) /\
    on_circle 1 (transposed 3 c) = on_circle 1 c /\ on_circle 2 (transposed 4 c) = on_circle 2 c.
Proof. exact circle_steps. Qed.
Print Assumptions C72_steps.

Theorem C72_bounds :
  forall c b v, zlen c = 12 -> tonal_new = OK b -> transform2TCS b c = OK v ->
    (forall r, 0 <= r < 3 ->
       (sqrt (fst (point v r) * fst (point v r) + snd (point v r) * snd (point v r)) <= radius r * norm1 c)%R) /\
    (norm2 v <= sqrt 2.57 * norm1 c)%R.
Proof. exact tcs_bounds. Qed.
Print Assumptions C72_bounds.

Theorem C72_magnitude : forall v, zlen v = 6 -> magnitude v = OK (norm2 v).
Proof. exact magnitude_ok. Qed.
Print Assumptions C72_magnitude.

(** The single note C lies at (0, 1), (0, 0.6), (0, 1.1). *)
Example C72_case : let c := 1%R :: repeat 0%R 11 in zlen c = 12 /\ on_circle 0 c = (0, 1)%R /\ on_circle 2 c = (0, 11 / 10)%R.
Proof.
  cbv zeta. split; [reflexivity|].
  assert (S : forall f, rsum 12 (fun p => zn 0 (1%R :: repeat 0%R 11) p * f p)%R = f 0).
  { intros f. rewrite rsum_first by lia. rewrite rsum_zero; [change (zn 0%R (1%R :: repeat 0%R 11) 0) with 1%R; ring|].
    intros i Hi. rewrite zn_cons. destruct (Z.eqb_spec (i + 1) 0); [lia|]. destruct (Z.ltb_spec (i + 1) 0); [lia|].
    rewrite zn_repeat. ring. }
  unfold on_circle. rewrite !(S (fun p => sin (IZR p * _))), !(S (fun p => cos (IZR p * _))), !Rmult_0_l, sin_0, cos_0.
  unfold radius. split; f_equal; ring.
Qed.

(** C73: the change function is the distance between the smoothed centroids before and after. *)
Theorem C73_values :
  forall w g junk, 0 <= w -> frames_ok g -> duration_ok g junk ->
    exists o, cdf_new w = OK o /\
      change_process o g junk = OK (ztab (zlen (g_list g)) (change w (map snd (g_list g)))).
Proof. exact change_values. Qed.
Print Assumptions C73_values.

(** The same piece in another key has the same change function. *)
Theorem C73_transposed :
  forall b k cs g g' w junk junk', tonal_new = OK b -> Forall (fun c => zlen c = 12) cs ->
    Forall2 (fun c p => transform2TCS b c = OK (snd p)) cs (g_list g) ->
    Forall2 (fun c p => transform2TCS b (transposed k c) = OK (snd p)) cs (g_list g') ->
    0 <= w -> duration_ok g junk -> duration_ok g' junk' ->
    exists o vs, cdf_new w = OK o /\ change_process o g junk = OK vs /\ change_process o g' junk' = OK vs.
Proof. exact change_transposed. Qed.
Print Assumptions C73_transposed.

Example C73_case : let g := {| g_list := [(0, repeat 1%R 6); (7, repeat 0%R 6); (14, repeat 2%R 6)]; g_dur := 7.5%R |} in
  frames_ok g /\ duration_ok g (-3.5)%R.
Proof.
  split; [repeat constructor|]. intros p Hp. cbn [g_list] in Hp. change (zlen _) with 3 in Hp.
  assert (C : p = 0 \/ p = 1 \/ p = 2) by lia. assert (100 < IZR (2 ^ 63))%R by (apply IZR_lt; lia).
  eapply Rle_lt_trans; [|eassumption]. apply Rabs_le. destruct C as [->|[->| ->]]; lra.
Qed.

(** C74: gain scales it, playing the piece backwards reverses it, it depends only on the frames within the
    smoothing width plus one, and it is 0 where those are all equal. *)
Theorem C74_gain : forall c w vs p, (change w (map (map (Rmult c)) vs) p = Rabs c * change w vs p)%R.
Proof. exact change_gain. Qed.
Print Assumptions C74_gain.

Theorem C74_reversed : forall w vs p, change w (rev vs) p = change w vs (zlen vs - 1 - p).
Proof. exact change_rev. Qed.
Print Assumptions C74_reversed.

Theorem C74_local :
  forall w vs vs' p, zlen vs' = zlen vs ->
    (forall q, p - w - 1 <= q <= p + w + 1 -> zn [] vs' q = zn [] vs q) -> change w vs' p = change w vs p.
Proof. exact change_local. Qed.
Print Assumptions C74_local.

Theorem C74_steady :
  forall w vs p v, 0 <= w -> 0 <= p - w - 1 -> p + w + 1 < zlen vs ->
    (forall q, p - w - 1 <= q <= p + w + 1 -> zn [] vs q = v) -> change w vs p = 0%R.
Proof. exact change_steady. Qed.
Print Assumptions C74_steady.

Example C74_case : 0 <= 1 - 0 - 1 /\ 1 + 0 + 1 < zlen (repeat [1; 2; 3; 4; 5; 6]%R 3).
Proof. cbn. lia. Qed.

(** C75: a piece that never changes shows no change: false at both ends, whatever the width. *)
Theorem C75_constant_refuted :
  forall w n v, 0 <= w -> 2 <= n -> (0 < norm2 v)%R ->
    (0 < change w (repeat v (Z.to_nat n)) 0)%R /\ (0 < change w (repeat v (Z.to_nat n)) (n - 1))%R.
Proof. exact change_ends. Qed.
Print Assumptions C75_constant_refuted.

(** Smoothing over 0 neighbours leaves the frames alone: false, they are amplified. *)
Theorem C75_unsmoothed_refuted :
  forall vs p i, 0 <= p < zlen vs ->
    (smoothed 0 vs p i = bell 0 0 * zn 0 (zn [] vs p) i)%R /\ (1.6 < bell 0 0)%R.
Proof. exact unsmoothed_gain. Qed.
Print Assumptions C75_unsmoothed_refuted.

(** process always has defined behaviour: false, it converts an uninitialised double to an integer. *)
Theorem C75_defined_refuted :
  exists w o g junk, 0 <= w /\ frames_ok g /\ cdf_new w = OK o /\ change_process o g junk = UB.
Proof. exact duration_undefined. Qed.
Print Assumptions C75_defined_refuted.

Example C75_case : (0 < norm2 [1; 0; 0; 0; 0; 0])%R.
Proof. unfold norm2. apply sqrt_lt_R0. rewrite rsum6. unfold zn. simpl. lra. Qed.

(** C76: a TCSGram gives back the frames in order, with the times at which they start. *)
Theorem C76_times :
  forall junk d vs, (0 <= d)%R -> (IZR (zlen vs) * d < IZR (2 ^ 63))%R ->
    exists g, add_all (set_duration (gram_new junk) d) vs = OK g /\ map snd (g_list g) = vs /\
      get_duration g = OK (Zfloor (IZR (zlen vs) * d)) /\
      (forall i, get_vec g i = OK (if (0 <=? i) && (i <? zlen vs) then zn [] vs i else repeat 0%R 6)) /\
      (forall i, 0 <= i < zlen vs -> get_time g i = OK (Zfloor (IZR i * d))) /\
      (forall i j a b, i <= j -> get_time g i = OK a -> get_time g j = OK b -> a <= b).
Proof. exact gram_times. Qed.
Print Assumptions C76_times.

Example C76_case : (0 <= 46.4)%R /\ (IZR (zlen [repeat 1%R 6; repeat 2%R 6]) * 46.4 < IZR (2 ^ 63))%R.
Proof. split; [lra|]. change (zlen _) with 2. assert (100 < IZR (2 ^ 63))%R by (apply IZR_lt; lia). lra. Qed.

(** C77: normalizeL1 gives total 1, except that near-silence becomes silence, whatever the level. *)
Theorem C77_normalized :
  forall c, zlen c = 12 ->
    exists c', normalizeL1 c = OK c' /\ zlen c' = 12 /\
      ((0.0000001 < norm1 c)%R -> norm1 c' = 1%R /\ forall p, 0 <= p < 12 -> zn 0%R c' p = (zn 0 c p / norm1 c)%R) /\
      ((norm1 c <= 0.0000001)%R -> c' = repeat 0%R 12) /\
      (forall g, (0 < g)%R -> (0.0000001 < norm1 c)%R -> (0.0000001 < g * norm1 c)%R -> normalizeL1 (map (Rmult g) c) = OK c').
Proof. exact normalize_spec. Qed.
Print Assumptions C77_normalized.

Example C77_case : zlen (repeat (-2)%R 12) = 12 /\ (0.0000001 < norm1 (repeat (-2) 12))%R.
Proof.
  split; [reflexivity|]. unfold norm1. eapply Rlt_le_trans; [|apply (rsum_term 12 _ 0)]; [|intros; apply Rabs_pos|lia].
  cbn. rewrite Rabs_left by lra. lra.
Qed.
